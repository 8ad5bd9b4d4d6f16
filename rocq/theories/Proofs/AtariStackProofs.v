From Coq Require Import QArith.
From Verif Require Import Base.PyBase Model.GymEnv Model.Wrappers Spec.WrapperSpec Proofs.WrappersProofs Model.AtariStack Spec.AtariStackSpec.
Set Implicit Arguments.
Local Open Scope nat_scope.

Section Counts.
Context {A : Type}.
Lemma since_app : forall (l1 l2 : list (op A)) c, steps_since c (l1 ++ l2) = steps_since (steps_since c l1) l2.
Proof. intros. unfold steps_since. apply fold_left_app. Qed.
Lemma within_app : forall k (l1 l2 : list (op A)) c, within k c l1 -> within k (steps_since c l1) l2 -> within k c (l1 ++ l2).
Proof.
  induction l1 as [|[|a] l1 IH]; intros l2 c H1 H2; cbn in *; [exact H2|apply IH; assumption|].
  destruct c as [j|]; [|contradiction]. destruct H1 as [J H1]. split; [exact J|]. apply IH; assumption.
Qed.
Lemma within_mono : forall k k' (l : list (op A)) c, k <= k' -> within k c l -> within k' c l.
Proof. induction l as [|[|a] l IH]; intros c L H; cbn in *; [exact I|apply IH; assumption|]. destruct c as [j|]; [|contradiction]. destruct H as [J H]. split; [lia|apply IH; assumption]. Qed.
End Counts.

Section Game.
Context {A O X : Type}.
Variable E : env A O X.
Variable e0 : est E.
Variable m : nat.
Hypothesis M1 : 1 <= m.

Lemma ran_split : forall (l1 l2 : list (op A * out O X)) e e1 e2, ran E e l1 e1 -> ran E e1 l2 e2 -> ran E e (l1 ++ l2) e2.
Proof. intros. eapply ran_app; eassumption. Qed.

(** What one call of a wrapped game does. *)
Definition call_log {O'} (K : nat) (clip life : bool) (acts : list A) (e : est E) (c : option nat) (o : op A) (x : out O' X) (e' : est E) (c' : option nat) : Prop :=
  exists log, ran E e log e' /\ within K c (map fst log) /\ c' = steps_since c (map fst log) /\
    match o, x with
    | Step a, OStep s => exists n, c' = Some n /\ step_of_game clip life m a s log (elives E e) (elives E e') n
    | Reset, OReset _ => reset_of_game acts log
    | _, _ => False
    end.
Definition keeps {O'} (B : env A O' X) (raw : est B -> est E) (cnt : est B -> option nat) (Inv : phase -> est B -> Prop) K clip life acts : Prop :=
  (forall w, elives B w = elives E (raw w)) /\
  forall ph w o w' x, Inv ph w -> allowed ph o -> exec B w o = Ok (w', x) ->
    call_log K clip life acts (raw w) (cnt w) o x (raw w') (cnt w') /\ Inv (next_phase x) w'.
Definition good {O'} K clip life acts (g : live_env A O' X) : Prop :=
  exists raw cnt Inv, keeps (l_env g) raw cnt Inv K clip life acts /\ Inv Fresh (l_state g) /\ raw (l_state g) = e0 /\ cnt (l_state g) = None.

(** Histories. *)
Lemma keeps_run : forall O' (B : env A O' X) raw cnt Inv K clip life acts, keeps B raw cnt Inv K clip life acts ->
  forall ops w w' ys ph, Inv ph w -> run B w ops = Ok (w', ys) -> obeys ph ops ys ->
  exists logs, played E clip life m acts (raw w) (cnt w) ops ys logs /\ within K (cnt w) (map fst (concat logs)) /\ ran E (raw w) (concat logs) (raw w').
Proof.
  intros O' B raw cnt Inv K clip life acts [HL HK] ops. induction ops as [|o ops IH]; intros w w' ys ph I H OB.
  - cbn in H. assert (w' = w) as -> by congruence. assert (ys = []) as -> by congruence. exists []. split; [constructor|]. split; [exact Logic.I|]. apply ran_nil.
  - cbn in H. destruct (exec B w o) as [[w1 y]|ex] eqn:EX; [|discriminate]. cbn in H. destruct (run B w1 ops) as [[w2 ys2]|ex] eqn:RN; [|discriminate]. cbn in H.
    assert (w' = w2) as -> by congruence. assert (ys = y :: ys2) as -> by congruence. destruct OB as [AL OB].
    destruct (HK _ _ _ _ _ I AL EX) as [(log & R1 & W1 & C1 & S1) I1].
    destruct (IH _ _ _ _ I1 RN OB) as (logs & P2 & W2 & R2). exists (log :: logs). rewrite C1 in *. split; [|split].
    + econstructor; [exact R1| |exact P2]. destruct o, y; exact S1.
    + cbn. rewrite map_app. apply within_app; assumption.
    + cbn. eapply ran_split; eassumption.
Qed.

(** make_atari. *)
Variable omax : O -> O -> O.
Variable noop : A.
Definition L := continuing_time_limit E (Z.of_nat m).
Definition NR := noop_reset noop L.
Definition M := max_and_skip omax NR 4.
Definition rawN (w : est NR) : est E := snd (snd w).
Definition cntN (w : est NR) : option nat := fst (snd w).
Definition rawM (w : est M) : est E := rawN (snd w).
Definition cntM (w : est M) : option nat := cntN (snd w).

Lemma L_step : forall j e a s x, estep L (Some j, e) a = Ok (s, x) -> exists e' z, s = (Some (S j), e') /\ estep E e a = Ok (e', z) /\
  so_obs x = so_obs z /\ so_rew x = so_rew z /\ so_done x = so_done z /\ needs_reset (so_info x) = needs_reset (so_info z) || (m <=? S j).
Proof.
  intros j e a s x H. cbn in H. unfold ctl_step in H. cbn in H. destruct (estep E e a) as [[e' z]|ex] eqn:ES; [|discriminate]. cbn in H.
  exists e', z. replace (j + 1) with (S j) in H by lia.
  assert (B : (Z.of_nat m <=? Z.of_nat (S j))%Z = (m <=? S j)) by (destruct (Nat.leb_spec m (S j)); destruct (Z.leb_spec (Z.of_nat m) (Z.of_nat (S j))); try reflexivity; exfalso; lia).
  change (Z.pos (Pos.of_succ_nat j)) with (Z.of_nat (S j)) in H. rewrite B in H.
  destruct (m <=? S j) eqn:BB; inversion H; subst; repeat split; cbn; rewrite ?orb_true_r, ?orb_false_r; reflexivity.
Qed.
Lemma exec_E : forall e a e' z, estep E e a = Ok (e', z) -> exec E e (Step a) = Ok (e', OStep z).
Proof. intros e a e' z H. cbn. rewrite H. reflexivity. Qed.
Lemma exec_ER : forall e e' o, ereset E e = Ok (e', o) -> exec E e Reset = Ok (e', OReset o).
Proof. intros e e' o H. cbn. rewrite H. reflexivity. Qed.

Lemma NR_step : forall draws k j e a w x, estep NR (draws, k, (Some j, e)) a = Ok (w, x) -> exists e' z, w = (draws, k, (Some (S j), e')) /\ estep E e a = Ok (e', z) /\
  so_rew x = so_rew z /\ so_done x = so_done z /\ needs_reset (so_info x) = needs_reset (so_info z) || (m <=? S j).
Proof.
  intros draws k j e a w x H. unfold NR in H. cbn [estep noop_reset fst snd] in H.
  destruct (estep L (Some j, e) a) as [[s y]|ex] eqn:LS; [|discriminate]. cbn in H. destruct (@L_step _ _ _ _ _ LS) as (e' & z & -> & ES & _ & R & D & N).
  exists e', z. inversion H; subst. repeat split; assumption.
Qed.

Lemma skip_raw : forall n a i total buf draws k j e t buf' w' x, i + n = 4 -> j <= m ->
  skip_loop NR 4 a n i total buf (draws, k, (Some j, e)) = Ok (t, buf', w', x) ->
  exists ss z e' j', w' = (draws, k, (Some j', e')) /\ ran E e (map (fun s => (Step a, OStep s)) (ss ++ [z])) e' /\
    j' = j + S (length ss) /\ length ss < n /\ (j < m -> j' <= m) /\ j' <= S m /\ (terminal x = false -> j' < m) /\
    Forall (fun s => so_done s = false /\ needs_reset (so_info s) = false) ss /\
    (S (length ss) < n -> so_done z = true \/ needs_reset (so_info z) = true \/ m <= j') /\
    (t == total + qsum (map (@so_rew O X) (ss ++ [z])))%Q /\ so_done x = so_done z /\ needs_reset (so_info x) = needs_reset (so_info z) || (m <=? j').
Proof.
  induction n as [|n IH]; intros a i total buf draws k j e t buf' w' x IN J H; [discriminate|].
  cbn [skip_loop] in H. destruct (estep NR (draws, k, (Some j, e)) a) as [[w1 x1]|ex] eqn:ST; [|discriminate]. cbn [bind] in H.
  destruct (@NR_step _ _ _ _ _ _ _ ST) as (e1 & z1 & -> & ES & R1 & D1 & N1).
  set (buf1 := if i + 1 =? 4 then _ else _) in H.
  destruct (terminal x1) eqn:T1.
  - inversion H; subst. exists [], z1, e1, (S j). split; [reflexivity|]. split; [apply ran_one, exec_E, ES|]. cbn [length]. split; [lia|]. split; [lia|]. split; [lia|]. split; [lia|].
    split; [congruence|]. split; [constructor|]. split.
    { intros _. unfold terminal in T1. rewrite D1, N1 in T1. destruct (so_done z1); [left; reflexivity|]. destruct (needs_reset (so_info z1)); [right; left; reflexivity|].
      right; right. cbn in T1. apply Nat.leb_le in T1. exact T1. }
    split; [cbn; rewrite R1; ring|]. split; assumption.
  - assert (JM : S j < m).
    { unfold terminal in T1. rewrite N1 in T1. apply orb_false_iff in T1. destruct T1 as [_ T1]. apply orb_false_iff in T1. destruct T1 as [_ T1]. apply Nat.leb_gt in T1. exact T1. }
    assert (Z1 : so_done z1 = false /\ needs_reset (so_info z1) = false).
    { unfold terminal in T1. rewrite D1, N1 in T1. apply orb_false_iff in T1. destruct T1 as [TA T1]. apply orb_false_iff in T1. destruct T1 as [TB _]. split; assumption. }
    destruct n as [|n].
    + inversion H; subst. exists [], z1, e1, (S j). split; [reflexivity|]. split; [apply ran_one, exec_E, ES|]. cbn [length]. split; [lia|]. split; [lia|]. split; [lia|]. split; [lia|].
      split; [intros _; exact JM|]. split; [constructor|]. split; [lia|]. split; [cbn; rewrite R1; ring|]. split; assumption.
    + destruct (IH a (i + 1) _ _ _ _ (S j) _ _ _ _ _ ltac:(lia) ltac:(lia) H) as (ss & z & e' & j' & -> & RN & J' & LS & B1 & B2 & B3 & F & ST2 & Q & D & N).
      exists (z1 :: ss), z, e', j'. split; [reflexivity|]. split; [cbn; eapply ran_cons; [apply exec_E, ES|exact RN]|]. cbn [length]. split; [lia|]. split; [lia|].
      split; [intros _; apply B1; exact JM|]. split; [exact B2|]. split; [exact B3|]. split; [constructor; assumption|]. split; [intros G; apply ST2; lia|].
      split; [rewrite Q; unfold qsum; cbn [app map fold_right]; rewrite R1; ring|]. split; assumption.
Qed.

Lemma steps_log : forall (a : A) (l : list (sout O X)) j, map fst (map (fun s => (Step a, OStep s)) l) = repeat (Step a) (length l) /\
  steps_since (Some j) (repeat (Step a) (length l)) = Some (j + length l).
Proof.
  intros a l. induction l as [|s l IH]; intros j; [cbn; split; [reflexivity|f_equal; lia]|].
  cbn [map length repeat fst]. destruct (IH (S j)) as [P Q]. split; [rewrite P; reflexivity|]. unfold steps_since in *. cbn. rewrite Q. f_equal. lia.
Qed.
Lemma within_steps : forall K (a : A) n j, j + n <= K -> within K (Some j) (repeat (Step a) n).
Proof. induction n as [|n IH]; intros j L; cbn; [exact I|]. split; [lia|]. apply IH. lia. Qed.

Lemma M_step : forall w a w' y j, cntM w = Some j -> j <= m -> exec M w (Step a) = Ok (w', OStep y) -> exists j',
  cntM w' = Some j' /\ j' <= S m /\ (j < m -> j' <= m) /\ (terminal y = false -> j' < m) /\
  exists log, ran E (rawM w) log (rawM w') /\ within j' (cntM w) (map fst log) /\ cntM w' = steps_since (cntM w) (map fst log) /\
    step_of_game false false m a y log (elives E (rawM w)) (elives E (rawM w')) j'.
Proof.
  intros [buf [[draws k] [c e]]] a w' y j HC J H. cbn in HC. subst c. apply exec_step in H. destruct H as (y1 & EY & MS).
  unfold M in MS. cbn [estep max_and_skip] in MS. unfold ms_step in MS. cbn [fst snd] in MS.
  apply bind_ok in MS. destruct MS as ([[[t buf'] w2] x] & SL & MS).
  destruct (@skip_raw 4 a 0 _ _ _ _ _ _ _ _ _ _ eq_refl J SL) as (ss & z & e' & j' & -> & RN & J' & LS & B1 & B2 & B3 & F & ST & Q & D & N).
  injection EY as ->. injection MS as <- <-. exists j'. split; [reflexivity|]. split; [exact B2|]. split; [exact B1|]. split; [intros T; apply B3; exact T|].
  eexists. split; [exact RN|]. destruct (@steps_log a (ss ++ [z]) j) as [P1 P2]. rewrite app_length in P1, P2. cbn [length] in P1, P2. rewrite P1. cbn [cntM cntN fst snd].
  split; [apply within_steps; lia|]. split; [rewrite P2; f_equal; lia|].
  exists ss, z. cbn [so_rew so_done so_info]. split; [reflexivity|]. split; [exact LS|]. split; [exact F|]. split; [intros G; apply ST; lia|].
  split; [rewrite Q; cbn; ring|]. split; [rewrite D, orb_false_r; reflexivity|exact N].
Qed.

Lemma noop_raw : forall n obs draws_w e j ob w', j < m -> noop_loop noop L n obs (Some j, e) = Ok (ob, w') ->
  exists log e' j', w' = (Some j', e') /\ j' < m /\ ran E e log e' /\ within m (Some j) (map fst log) /\ steps_since (Some j) (map fst log) = Some j' /\ reset_of_game [noop] log /\ draws_w = draws_w :> nat.
Proof.
  induction n as [|n IH]; intros obs dw e j ob w' J H.
  - cbn in H. inversion H; subst. exists [], e, j. split; [reflexivity|]. split; [exact J|]. split; [apply ran_nil|]. split; [exact I|]. split; [reflexivity|]. split; [constructor|reflexivity].
  - cbn [noop_loop] in H. destruct (estep L (Some j, e) noop) as [[s x]|ex] eqn:ST; [|discriminate]. cbn [bind] in H.
    destruct (@L_step _ _ _ _ _ ST) as (e1 & z & -> & ES & _ & _ & D & N). destruct (terminal x) eqn:T.
    + cbn in H. unfold ctl_reset in H. cbn [snd] in H. destruct (ereset E e1) as [[e2 o2]|ex] eqn:ER; [|discriminate]. cbn in H.
      destruct (IH _ dw e2 0 _ _ M1 H) as (log & e' & j' & -> & J' & RN & W & C & RG & _).
      exists ((Step noop, OStep z) :: (Reset, OReset o2) :: log), e', j'. split; [reflexivity|]. split; [exact J'|].
      split; [eapply ran_cons; [apply exec_E, ES|]; eapply ran_cons; [apply exec_ER, ER|exact RN]|]. cbn [map fst within]. split; [split; [lia|exact W]|]. split; [exact C|].
      split; [constructor; [left; reflexivity|constructor; [exact I|exact RG]]|reflexivity].
    + assert (JM : S j < m).
      { unfold terminal in T. rewrite N in T. apply orb_false_iff in T. destruct T as [_ T]. apply orb_false_iff in T. destruct T as [_ T]. apply Nat.leb_gt in T. exact T. }
      destruct (IH _ dw e1 (S j) _ _ JM H) as (log & e' & j' & -> & J' & RN & W & C & RG & _).
      exists ((Step noop, OStep z) :: log), e', j'. split; [reflexivity|]. split; [exact J'|]. split; [eapply ran_cons; [apply exec_E, ES|exact RN]|]. cbn [map fst within].
      split; [split; [lia|exact W]|]. split; [exact C|]. split; [constructor; [left; reflexivity|exact RG]|reflexivity].
Qed.
Lemma M_reset : forall w w' y, exec M w Reset = Ok (w', y) -> exists j' ob, y = OReset ob /\ cntM w' = Some j' /\ j' < m /\
  exists log, ran E (rawM w) log (rawM w') /\ within m (cntM w) (map fst log) /\ cntM w' = steps_since (cntM w) (map fst log) /\ reset_of_game [noop] log.
Proof.
  intros [buf [[draws k] [c e]]] w' y H. apply exec_reset in H. destruct H as (ob0 & EY & H). unfold M in H. cbn [ereset max_and_skip] in H. unfold ms_reset in H. apply bind_ok in H. destruct H as ([w1 o0] & H & H0). cbn [fst snd] in H, H0.
  unfold NR in H. cbn [ereset noop_reset] in H. unfold nr_reset in H. unfold L at 1 in H.
  cbn [ereset continuing_time_limit] in H. unfold ctl_reset in H. cbn [snd] in H.
  apply bind_ok in H. destruct H as ([w2 o2] & H1 & H). apply bind_ok in H1. destruct H1 as ([e1 o1] & ER & H1). injection H1 as <- <-.
  cbn [bind] in H. destruct (0 <? draws k); [|discriminate]. cbn [bind] in H. apply bind_ok in H. destruct H as ([ob w3] & NL & H).
  destruct (@noop_raw (draws k) None 0 e1 0 _ _ M1 NL) as (log & e' & j' & -> & J' & RN & W & C & RG & _).
  destruct ob as [o|]; [|discriminate]. injection H as <- <-. injection H0 as <- <-.
  exists j'. eexists. split; [exact EY|]. split; [reflexivity|]. split; [exact J'|].
  exists ((Reset, OReset o1) :: log). split; [eapply ran_cons; [apply exec_ER, ER|exact RN]|]. cbn [map fst within]. split; [exact W|]. split; [symmetry; exact C|]. constructor; [exact I|exact RG].
Qed.

Lemma good_atari : forall zero draws, good m false false [noop] (make_atari omax noop zero (mk_live E e0) (Some (Z.of_nat m)) draws).
Proof.
  intros zero draws. unfold make_atari. cbn [l_env l_state]. destruct (Z.eqb_spec (Z.of_nat m) 0) as [Z|_]; [lia|].
  exists (rawM : est M -> est E), cntM, (fun ph w => match ph with Fresh | Over => True | _ => exists j, cntM w = Some j /\ j < m end).
  split; [|split; [exact I|split; reflexivity]]. split; [reflexivity|].
  intros ph w o w' x I0 AL EX. destruct o as [|a].
  - destruct (@M_reset _ _ _ EX) as (j' & ob & -> & C & J & log & R & W & CC & RG). split; [|exists j'; split; assumption].
    exists log. split; [exact R|]. split; [exact W|]. split; [exact CC|exact RG].
  - assert (exists j, cntM w = Some j /\ j < m) as (j & C & J) by (destruct ph; [contradiction|exact I0|exact I0|contradiction]).
    pose proof (exec_step _ _ _ EX) as (y & -> & _).
    destruct (@M_step _ _ _ _ _ C (Nat.lt_le_incl _ _ J) EX) as (j' & C' & B1 & B2 & B3 & log & R & W & CC & SG). split.
    + exists log. split; [exact R|]. split; [eapply within_mono; [|exact W]; apply B2, J|]. split; [exact CC|]. exists j'. split; [exact C'|exact SG].
    + cbn [next_phase]. destruct (terminal y) eqn:T; [exact I|]. exists j'. split; [exact C'|apply B3; reflexivity].
Qed.

Lemma good_life : forall zero draws, let g := make_atari omax noop zero (mk_live E e0) (Some (Z.of_nat m)) draws in
  good (S m) false true [noop] (mk_live (episodic_life noop (l_env g)) (0, true, l_state g)).
Proof.
  intros zero draws. unfold make_atari. cbn [l_env l_state]. destruct (Z.eqb_spec (Z.of_nat m) 0) as [Z|_]; [lia|]. cbn [l_env l_state].
  change (max_and_skip omax (noop_reset noop (continuing_time_limit E (Z.of_nat m))) 4) with M.
  exists (fun w : est (episodic_life noop M) => rawM (snd w)), (fun w => cntM (snd w)),
    (fun ph w => match ph with
      | Fresh => snd (fst w) = true
      | JustReset => fst (fst w) = elives E (rawM (snd w)) /\ exists j, cntM (snd w) = Some j /\ j <= m
      | Playing => fst (fst w) = elives E (rawM (snd w)) /\ snd (fst w) = false /\ exists j, cntM (snd w) = Some j /\ j < m
      | Over => fst (fst w) = elives E (rawM (snd w)) /\ (snd (fst w) = false -> exists j, cntM (snd w) = Some j /\ j < m)
      end).
  split; [|split; [reflexivity|split; reflexivity]]. split; [reflexivity|].
  intros ph [[lives flag] w] o w' x I0 AL EX. cbn [fst snd] in I0. destruct o as [|a].
  - apply exec_reset in EX. destruct EX as (ob & -> & EX). cbn [ereset episodic_life] in EX. unfold el_reset in EX. cbn [fst snd] in EX.
    apply bind_ok in EX. destruct EX as ([w1 o1] & EX & R1). injection R1 as <- <-. cbn [next_phase fst snd].
    cbn [fst snd] in EX. destruct flag.
    + assert (EM : exec M w Reset = Ok (w1, OReset o1)) by (unfold exec; cbn [fst snd] in EX; rewrite EX; reflexivity).
      destruct (@M_reset _ _ _ EM) as (j' & ob & _ & C & J & log & R & W & CC & RG). split.
      * exists log. split; [exact R|]. split; [eapply within_mono; [|exact W]; lia|]. split; [exact CC|exact RG].
      * split; [reflexivity|]. exists j'. split; [exact C|lia].
    + apply bind_ok in EX. destruct EX as ([w2 x2] & EX & R1). injection R1 as <- <-.
      assert (EM : exec M w (Step noop) = Ok (w2, OStep x2)) by (unfold exec; cbn [fst snd] in EX; rewrite EX; reflexivity).
      assert (exists j, cntM w = Some j /\ j < m) as (j & C & J).
      { destruct ph; [discriminate|contradiction|apply I0|]. destruct I0 as [_ I0]. apply I0. reflexivity. }
      destruct (@M_step _ _ _ _ _ C (Nat.lt_le_incl _ _ J) EM) as (j' & C' & B1 & B2 & B3 & log & R & W & CC & SG). split.
      * exists log. split; [exact R|]. split; [eapply within_mono; [|exact W]; lia|]. split; [exact CC|].
        destruct SG as (ss & z & -> & _). unfold reset_of_game. apply Forall_map. apply Forall_forall. intros s _. left. reflexivity.
      * split; [reflexivity|]. exists j'. split; [exact C'|apply B2, J].
  - apply exec_step in EX. destruct EX as (y & -> & EX). cbn [estep episodic_life] in EX. unfold el_step in EX. cbn [fst snd] in EX.
    apply bind_ok in EX. destruct EX as ([w1 x1] & EX & R1). injection R1 as <- <-.
    assert (EM : exec M w (Step a) = Ok (w1, OStep x1)) by (unfold exec; cbn [fst snd] in EX; rewrite EX; reflexivity).
    assert (LI : lives = elives E (rawM w)) by (destruct ph; [contradiction|apply I0|apply I0|contradiction]).
    assert (exists j, cntM w = Some j /\ j <= m) as (j & C & J).
    { destruct ph; [contradiction|apply I0| |contradiction]. destruct I0 as (_ & _ & j & C & J). exists j. split; [exact C|lia]. }
    destruct (@M_step _ _ _ _ _ C J EM) as (j' & C' & B1 & B2 & B3 & log & R & W & CC & SG).
    change (elives M w1) with (elives E (rawM w1)). split.
    + exists log. split; [exact R|]. split; [eapply within_mono; [|exact W]; exact B1|]. split; [exact CC|]. exists j'. split; [exact C'|].
      destruct SG as (ss & z & SL & LN & F & ST & Q & D & N). exists ss, z. cbn [so_rew so_done so_info snd fst].
      split; [exact SL|]. split; [exact LN|]. split; [exact F|]. split; [exact ST|]. split; [exact Q|]. split; [|exact N].
      change (snd (snd (snd w1))) with (rawM w1). rewrite <- LI. rewrite D. cbn [andb]. rewrite orb_false_r. rewrite (andb_comm (0 <? _)).
      destruct ((elives E (rawM w1) <? lives) && (0 <? elives E (rawM w1))); [rewrite orb_true_r; reflexivity|rewrite orb_false_r; reflexivity].
    + cbn [next_phase]. destruct (terminal (mk_sout _ _ _ _)) eqn:T; cbn [fst snd].
      * split; [reflexivity|]. intros T1. exists j'. split; [exact C'|apply B3; exact T1].
      * split; [reflexivity|]. assert (T1 : terminal x1 = false).
        { unfold terminal in T |- *. cbn [so_done so_info] in T. apply orb_false_iff in T. destruct T as [TA TB]. rewrite TB, orb_false_r.
          destruct (_ && _) in TA; [discriminate|exact TA]. }
        split; [exact T1|]. exists j'. split; [exact C'|apply B3; exact T1].
Qed.

(** Wrappers around such envs. *)
Lemma call_log_mono : forall O' K clip life acts acts' e c o (x : out O' X) e' c', incl acts acts' -> call_log K clip life acts e c o x e' c' -> call_log K clip life acts' e c o x e' c'.
Proof.
  intros O' K clip life acts acts' e c o x e' c' I (log & R & W & C & S). exists log. split; [exact R|]. split; [exact W|]. split; [exact C|].
  destruct o, x; try exact S. unfold reset_of_game in *. eapply Forall_impl; [|exact S]. intros [[|b] y] H; [exact H|]. apply I. exact H.
Qed.
Lemma call_log_seq : forall O' K clip life acts e c o1 (x1 : out O' X) e1 c1 o2 (x2 : out O' X) e2 c2 ob,
  match o1 with Reset => True | Step a => In a acts end -> match o2 with Reset => True | Step a => In a acts end ->
  call_log K clip life acts e c o1 x1 e1 c1 -> call_log K clip life acts e1 c1 o2 x2 e2 c2 -> call_log K clip life acts e c Reset (OReset ob : out O' X) e2 c2.
Proof.
  intros O' K clip life acts e c o1 x1 e1 c1 o2 x2 e2 c2 ob A1 A2 (l1 & R1 & W1 & C1 & S1) (l2 & R2 & W2 & C2 & S2).
  exists (l1 ++ l2). rewrite map_app. subst c1. split; [eapply ran_split; eassumption|]. split; [apply within_app; assumption|]. split; [rewrite since_app; exact C2|].
  assert (G : forall (o : op A) (x : out O' X) (l : list (op A * out O X)) (ea eb : nat) (cc : option nat), match o with Reset => True | Step a => In a acts end ->
    match o, x with Step a, OStep s => exists n, cc = Some n /\ step_of_game clip life m a s l ea eb n | Reset, OReset _ => reset_of_game acts l | _, _ => False end -> reset_of_game acts l).
  { intros [|a] [ob1|s] l ea eb cc HA HS; try contradiction; [exact HS|]. destruct HS as (n & _ & ss & z & -> & _). unfold reset_of_game. apply Forall_map, Forall_forall. intros s0 _. exact HA. }
  unfold reset_of_game. apply Forall_app. split; [exact (G _ _ _ _ _ _ A1 S1)|exact (G _ _ _ _ _ _ A2 S2)].
Qed.

Lemma good_fire : forall O' K clip life acts fire second (g : live_env A O' X), good K clip life acts g ->
  good K clip life (acts ++ [fire; second]) (mk_live (fire_reset fire second (l_env g)) (l_state g)).
Proof.
  intros O' K clip life acts fire second [B w0] (raw & cnt & Inv & [HL HK] & I0 & R0 & C0). cbn [l_env l_state] in *.
  set (acts' := acts ++ [fire; second]).
  assert (IN : incl acts acts') by (intros b Hb; apply in_or_app; left; exact Hb).
  assert (IF : In fire acts') by (apply in_or_app; right; left; reflexivity).
  assert (IS : In second acts') by (apply in_or_app; right; right; left; reflexivity).
  exists (raw : est (fire_reset fire second B) -> est E), cnt, (fun ph w => match ph with JustReset => Inv JustReset w \/ Inv Playing w | _ => Inv ph w end).
  split; [|split; [exact I0|split; assumption]]. split; [exact HL|].
  intros ph w o w' x I AL EX. destruct o as [|a].
  - apply exec_reset in EX. destruct EX as (ob & -> & EX). cbn [ereset fire_reset] in EX. unfold fr_reset in EX.
    apply bind_ok in EX. destruct EX as ([w1 o1] & X1 & EX). apply bind_ok in EX. destruct EX as ([o2 w2] & X2 & EX).
    apply bind_ok in EX. destruct EX as ([o3 w3] & X3 & EX). injection EX as <- <-.
    assert (I' : Inv ph w /\ @allowed A ph Reset) by (destruct ph; [split; assumption|contradiction|split; assumption|split; assumption]). destruct I' as [I' AL'].
    assert (EM : exec B w Reset = Ok (w1, OReset o1)) by (unfold exec; rewrite X1; reflexivity).
    destruct (HK _ _ _ _ _ I' AL' EM) as [CL1 I1]. cbn [next_phase] in I1.
    assert (FP : forall v a v' o0, In a acts' -> Inv JustReset v \/ Inv Playing v -> fire_part B v a = Ok (o0, v') ->
      exists o1 (x1 : out O' X), match o1 with Reset => True | Step a => In a acts' end /\ call_log K clip life acts' (raw v) (cnt v) o1 x1 (raw v') (cnt v') /\ (Inv JustReset v' \/ Inv Playing v')).
    { intros v a v' o0 HA IV FP. unfold fire_part in FP. apply bind_ok in FP. destruct FP as ([v1 x1] & ST & FP).
      assert (EM1 : exec B v (Step a) = Ok (v1, OStep x1)) by (unfold exec; rewrite ST; reflexivity).
      assert (CL : call_log K clip life acts (raw v) (cnt v) (Step a) (OStep x1) (raw v1) (cnt v1) /\ Inv (next_phase (OStep x1)) v1).
      { destruct IV as [IV|IV]; [exact (HK JustReset _ (Step a) _ _ IV Logic.I EM1)|exact (HK Playing _ (Step a) _ _ IV Logic.I EM1)]. }
      destruct CL as [CL IV1]. apply (call_log_mono IN) in CL. cbn [next_phase] in IV1. destruct (terminal x1).
      - apply bind_ok in FP. destruct FP as ([v2 o2'] & RS & FP). injection FP as <- <-.
        assert (EM2 : exec B v1 Reset = Ok (v2, OReset o2')) by (unfold exec; rewrite RS; reflexivity).
        destruct (HK Over _ Reset _ _ IV1 Logic.I EM2) as [CL2 IV2]. apply (call_log_mono IN) in CL2.
        exists Reset, (OReset o2'). split; [exact Logic.I|]. split; [|left; exact IV2].
        eapply call_log_seq; [| |exact CL|exact CL2]; [exact HA|exact Logic.I].
      - injection FP as <- <-. exists (Step a), (OStep x1). split; [exact HA|]. split; [exact CL|right; exact IV1]. }
    apply (call_log_mono IN) in CL1.
    destruct (FP _ _ _ _ IF (or_introl I1) X2) as (p1 & y1 & HA1 & CLa & IVa).
    destruct (FP _ _ _ _ IS IVa X3) as (p2 & y2 & HA2 & CLb & IVb).
    split; [|exact IVb].
    eapply (call_log_seq (o1 := Reset)); [exact Logic.I|exact HA2| |exact CLb].
    eapply (@call_log_seq O' K clip life acts' _ _ Reset _ _ _ p1 y1 _ _ o1); [exact Logic.I|exact HA1|exact CL1|exact CLa].
  - assert (CL : call_log K clip life acts (raw w) (cnt w) (Step a) x (raw w') (cnt w') /\ Inv (next_phase x) w').
    { destruct ph; [contradiction| |exact (HK _ _ _ _ _ I AL EX)|contradiction]. destruct I as [I|I]; [exact (HK _ _ _ _ _ I AL EX)|exact (HK Playing _ (Step a) _ _ I Logic.I EX)]. }
    destruct CL as [CL IV]. split; [apply (call_log_mono IN), CL|]. apply exec_step in EX. destruct EX as (y & -> & _). cbn [next_phase] in *. destruct (terminal y); exact IV.
Qed.

(** A wrapper that leaves the calls alone. *)
Definition like {O1 O2} (clip clip2 : bool) (x1 : out O1 X) (x2 : out O2 X) : Prop :=
  match x1, x2 with
  | OReset _, OReset _ => True
  | OStep s1, OStep s2 => so_done s1 = so_done s2 /\ so_info s1 = so_info s2 /\
      if clip then clip2 = true /\ so_rew s1 = so_rew s2 else if clip2 then so_rew s2 = qsign (so_rew s1) else so_rew s1 = so_rew s2
  | _, _ => False
  end.
Lemma sign_cases : forall q, (qsign q == 0 /\ q == 0 \/ qsign q == 1 /\ 0 < q \/ qsign q == -1 # 1 /\ q < 0)%Q.
Proof. intros [n d]. unfold qsign. cbn [Qnum]. destruct n; [left|right; left|right; right]; split; reflexivity. Qed.
Lemma good_like : forall O1 O2 K clip clip2 life acts (g : live_env A O1 X) (g2 : live_env A O2 X) (st : est (l_env g2) -> est (l_env g)),
  (forall w, elives (l_env g2) w = elives (l_env g) (st w)) ->
  (forall w o w' x2, exec (l_env g2) w o = Ok (w', x2) -> exists x1, exec (l_env g) (st w) o = Ok (st w', x1) /\ like clip clip2 x1 x2) ->
  st (l_state g2) = l_state g -> good K clip life acts g -> good K clip2 life acts g2.
Proof.
  intros O1 O2 K clip clip2 life acts g g2 st HE HX S0 (raw & cnt & Inv & [HL HK] & I0 & R0 & C0).
  exists (fun w => raw (st w)), (fun w => cnt (st w)), (fun ph w => Inv ph (st w)). rewrite S0. split; [|split; [exact I0|split; assumption]]. split; [intros w; rewrite HE; apply HL|].
  intros ph w o w' x2 IV AL EX. destruct (HX _ _ _ _ EX) as (x1 & EX1 & LK). destruct (HK _ _ _ _ _ IV AL EX1) as [(log & R & W & C & S) IV']. split.
  - exists log. split; [exact R|]. split; [exact W|]. split; [exact C|]. destruct o, x1 as [o1|s1], x2 as [o2|s2]; try contradiction; [exact S|].
    destruct LK as (LD & LI & LR). destruct S as (n & CN & ss & z & SL & LN & F & ST & Q & D & N). exists n. split; [exact CN|]. exists ss, z.
    split; [exact SL|]. split; [exact LN|]. split; [exact F|]. split; [exact ST|]. split; [|split; [rewrite <- LD; exact D|rewrite <- LI; exact N]].
    cbn zeta in *. destruct clip.
    + destruct LR as [-> LR]. rewrite <- LR. exact Q.
    + destruct clip2; [|rewrite <- LR; exact Q]. rewrite LR. destruct (sign_cases (so_rew s1)) as [[P1 P2]|[[P1 P2]|[P1 P2]]]; [left|right; left|right; right]; (split; [exact P1|]); rewrite <- Q; exact P2.
  - replace (next_phase x2) with (next_phase x1); [exact IV'|]. destruct x1 as [o1|s1], x2 as [o2|s2]; try contradiction; [reflexivity|].
    destruct LK as (LD & LI & _). cbn. unfold terminal. rewrite LD, LI. reflexivity.
Qed.

Lemma good_map_obs : forall O1 O2 K clip life acts (f : O1 -> O2) (g : live_env A O1 X), good K clip life acts g -> good K clip life acts (mk_live (map_obs f (l_env g)) (l_state g)).
Proof.
  intros O1 O2 K clip life acts f g G. refine (@good_like O1 _ K clip clip life acts g (mk_live (map_obs f (l_env g)) (l_state g)) (fun w => w) _ _ _ G); [reflexivity| |reflexivity].
  cbn [l_env]. intros w o w' x2 EX. destruct o as [|a].
  - apply exec_reset in EX. destruct EX as (ob & -> & EX). apply bind_ok in EX. destruct EX as ([w1 o1] & EX & R1). injection R1 as <- <-.
    exists (OReset o1). split; [unfold exec; rewrite EX; reflexivity|exact I].
  - apply exec_step in EX. destruct EX as (ob & -> & EX). apply bind_ok in EX. destruct EX as ([w1 o1] & EX & R1). injection R1 as <- <-.
    exists (OStep o1). split; [unfold exec; rewrite EX; reflexivity|]. cbn. destruct clip; repeat split.
Qed.
Lemma good_clip : forall O1 K life acts (g : live_env A O1 X), good K false life acts g -> good K true life acts (mk_live (clip_reward (l_env g)) (l_state g)).
Proof.
  intros O1 K life acts g G. refine (@good_like O1 _ K false true life acts g (mk_live (clip_reward (l_env g)) (l_state g)) (fun w => w) _ _ _ G); [reflexivity| |reflexivity].
  cbn [l_env]. intros w o w' x2 EX. destruct o as [|a].
  - apply exec_reset in EX. destruct EX as (ob & -> & EX). exists (OReset ob). split; [unfold exec; cbn [clip_reward map_reward ereset] in EX; rewrite EX; reflexivity|exact I].
  - apply exec_step in EX. destruct EX as (ob & -> & EX). apply bind_ok in EX. destruct EX as ([w1 o1] & EX & R1). injection R1 as <- <-.
    exists (OStep o1). split; [unfold exec; rewrite EX; reflexivity|]. cbn. repeat split.
Qed.
Lemma good_flicker : forall O1 K clip life acts blank coins (g : live_env A O1 X), good K clip life acts g -> good K clip life acts (mk_live (flicker_frame blank (l_env g)) (coins, 0, l_state g)).
Proof.
  intros O1 K clip life acts blank coins g G. refine (@good_like O1 _ K clip clip life acts g (mk_live (flicker_frame blank (l_env g)) (coins, 0, l_state g)) (fun w => snd w) _ _ _ G); [reflexivity| |reflexivity].
  cbn [l_env]. intros [[cs k] w] o w' x2 EX. destruct o as [|a].
  - apply exec_reset in EX. destruct EX as (ob & -> & EX). apply bind_ok in EX. destruct EX as ([w1 o1] & EX & R1). injection R1 as <- <-.
    exists (OReset o1). split; [unfold exec; cbn [snd]; rewrite EX; reflexivity|exact I].
  - apply exec_step in EX. destruct EX as (ob & -> & EX). apply bind_ok in EX. destruct EX as ([w1 o1] & EX & R1). injection R1 as <- <-.
    exists (OStep o1). split; [unfold exec; cbn [snd]; rewrite EX; reflexivity|]. cbn. destruct clip; repeat split.
Qed.
Lemma good_stack : forall O1 K clip life acts k q (g : live_env A O1 X), good K clip life acts g -> good K clip life acts (mk_live (frame_stack (l_env g) k) (q, l_state g)).
Proof.
  intros O1 K clip life acts k q g G. refine (@good_like O1 _ K clip clip life acts g (mk_live (frame_stack (l_env g) k) (q, l_state g)) (fun w => snd w) _ _ _ G); [reflexivity| |reflexivity].
  cbn [l_env]. intros [qs w] o w' x2 EX. destruct o as [|a].
  - apply exec_reset in EX. destruct EX as (ob & -> & EX). apply bind_ok in EX. destruct EX as ([w1 o1] & EX & R1). apply bind_ok in R1. destruct R1 as (ob1 & _ & R1). injection R1 as <- <-.
    exists (OReset o1). split; [unfold exec; cbn [snd] in *; rewrite EX; reflexivity|exact I].
  - apply exec_step in EX. destruct EX as (ob & -> & EX). apply bind_ok in EX. destruct EX as ([w1 o1] & EX & R1). apply bind_ok in R1. destruct R1 as (ob1 & _ & R1). injection R1 as <- <-.
    exists (OStep o1). split; [unfold exec; cbn [snd] in *; rewrite EX; reflexivity|]. cbn. destruct clip; repeat split.
Qed.
End Game.

Theorem atari_stack : forall A O P X (E : env A O X) (e0 : est E) m (omax : O -> O -> O) (noop fire second : A) zero draws opt (warp : O -> P) scaled blank coins, 1 <= m ->
  let acts := noop :: (if with_fire opt then [fire; second] else []) in
  let g := wrap_deepmind noop fire second opt warp scaled blank coins (make_atari omax noop zero (mk_live E e0) (Some (Z.of_nat m)) draws) in
  forall ops w ys, run (l_env g) (l_state g) ops = Ok (w, ys) -> obeys Fresh ops ys ->
  exists logs, played E (clip_rewards opt) (episode_life opt) m acts e0 None ops ys logs /\
    within (if episode_life opt then S m else m) None (map fst (concat logs)).
Proof.
  intros A O P X E e0 m omax noop fire second zero draws opt warp scaled blank coins M1 acts g.
  assert (G : good E e0 m (if episode_life opt then S m else m) (clip_rewards opt) (episode_life opt) acts g).
  { unfold g, wrap_deepmind, wrap_calls. set (g0 := make_atari _ _ _ _ _ _). clear g.
    set (g1 := if episode_life opt then _ else g0).
    assert (G1 : good E e0 m (if episode_life opt then S m else m) false (episode_life opt) [noop] g1).
    { unfold g1. destruct (episode_life opt); [apply good_life; exact M1|apply good_atari; exact M1]. }
    clearbody g1. clear g0. set (K := if episode_life opt then S m else m) in *. clearbody K. generalize dependent (episode_life opt). intros life G1.
    set (g2 := if with_fire opt then _ else g1). assert (G2 : good E e0 m K false life acts g2).
    { unfold g2, acts. destruct (with_fire opt); [apply (good_fire (acts := [noop])); exact G1|exact G1]. } clearbody g2.
    apply (good_map_obs warp) in G2. set (g3 := mk_live (map_obs warp (l_env g2)) (l_state g2)) in *. clearbody g3.
    set (g4 := if scale opt then _ else g3). assert (G4 : good E e0 m K false life acts g4) by (unfold g4; destruct (scale opt); [apply good_map_obs; exact G2|exact G2]). clearbody g4.
    set (g5 := if clip_rewards opt then _ else g4). assert (G5 : good E e0 m K (clip_rewards opt) life acts g5) by (unfold g5; destruct (clip_rewards opt); [apply good_clip; exact G4|exact G4]). clearbody g5.
    set (g6 := if flicker opt then _ else g5). assert (G6 : good E e0 m K (clip_rewards opt) life acts g6) by (unfold g6; destruct (flicker opt); [apply good_flicker; exact G5|exact G5]). clearbody g6.
    destruct (stack_frames opt); [apply good_stack; exact G6|apply good_map_obs; exact G6]. }
  intros ops w ys RN OB. destruct G as (raw & cnt & Inv & KP & I0 & R0 & C0).
  pose proof (keeps_run KP) as KR. destruct (KR ops _ _ _ Fresh I0 RN OB) as (logs & P1 & W1 & _). rewrite R0, C0 in *. exists logs. split; assumption.
Qed.

Lemma over_limit : exists w ys, run (l_env counted) (l_state counted) [Reset; Step 1; Reset; Step 1] = Ok (w, ys) /\
  obeys Fresh [Reset; Step 1; Reset; Step 1] ys /\ counted_steps w = 7.
Proof. eexists. eexists. split; [vm_compute; reflexivity|]. split; [cbn; tauto|reflexivity]. Qed.

Lemma reset_once : forall lives k j x1 x2, 5 <= j -> exec (l_env counted) (lives, false, (x1, x2, (fun _ => 1, k, (Some j, j)))) Reset =
  Ok ((2, false, (x1, x2, (fun _ => 1, k, (Some (S j), S j)))), OReset [Nat.max x1 x2]).
Proof.
  intros lives k j x1 x2 J.
  assert (CS : ctl_step counting_game 6 (Some j, j) 0 = Ok ((Some (S j), S j), mk_sout (S j) 1%Q false (mk_info true tt))).
  { unfold ctl_step. cbn [counting_game estep bind fst snd]. replace (j + 1) with (S j) by lia.
    destruct (Z.leb_spec 6 (Z.of_nat (S j))) as [_|G]; [reflexivity|lia]. }
  cbn [exec counted wrap_deepmind wrap_calls make_atari l_env l_state episode_life with_fire scale clip_rewards flicker stack_frames ereset map_obs episodic_life Z.eqb].
  unfold el_reset. cbn [fst snd estep max_and_skip]. unfold ms_step. cbn [fst snd skip_loop estep noop_reset continuing_time_limit]. rewrite CS.
  cbn [bind so_obs so_rew so_info terminal so_done needs_reset orb elives max_and_skip noop_reset continuing_time_limit counting_game fst snd Nat.eqb Nat.add].
  destruct (Nat.ltb_spec (S j) 5) as [G|_]; [lia|]. reflexivity.
Qed.
Lemma resets_step : forall n lives k j x1 x2, 5 <= j -> exists w ys, run (l_env counted) (lives, false, (x1, x2, (fun _ => 1, k, (Some j, j)))) (repeat Reset (S n)) = Ok (w, ys) /\ counted_steps w = S j + n.
Proof.
  induction n as [|n IH]; intros lives k j x1 x2 J.
  - cbn [repeat run]. rewrite reset_once by exact J. cbn [bind]. eexists. eexists. split; [reflexivity|]. cbn. lia.
  - destruct (IH 2 k (S j) x1 x2 ltac:(lia)) as (w & ys & R & C).
    exists w, (OReset [Nat.max x1 x2] :: ys). split; [|lia].
    change (repeat Reset (S (S n))) with (@Reset nat :: repeat Reset (S n)). cbn [run]. rewrite reset_once by exact J. cbn [bind].
    rewrite R. reflexivity.
Qed.
Lemma resets_pile : forall n, exists w ys, run (l_env counted) (l_state counted) ([Reset; Step 1] ++ repeat Reset (S n)) = Ok (w, ys) /\ counted_steps w = 6 + n.
Proof.
  intros n. destruct (@resets_step n 2 1 5 4 5 ltac:(lia)) as (w & ys & R & C).
  assert (H1 : exists ys1, run (l_env counted) (l_state counted) [Reset; Step 1] = Ok ((2, false, (4, 5, (fun _ => 1, 1, (Some 5, 5)))), ys1)) by (eexists; vm_compute; reflexivity).
  destruct H1 as [ys1 H1]. exists w. eexists. rewrite run_app. split; [|exact C].
  rewrite H1. cbn [bind]. rewrite R. reflexivity.
Qed.

(** Frames. *)
Section Frames.
Context {A X : Type}.
Lemma run_map : forall O P (f : O -> P) (E : env A O X) ops e e' xs, run E e ops = Ok (e', xs) -> run (map_obs f E) e ops = Ok (e', map (fun x => with_obs (f (out_obs x)) x) xs).
Proof.
  intros O P f E ops. induction ops as [|o ops IH]; intros e e' xs H.
  - cbn in H |- *. inversion H; subst. reflexivity.
  - cbn [run] in H. apply bind_ok in H. destruct H as ([e1 x] & EX & H). apply bind_ok in H. destruct H as ([e2 xs2] & RN & H). inversion H; subst.
    assert (E2 : exec (map_obs f E) e o = Ok (e1, with_obs (f (out_obs x)) x)).
    { destruct o as [|a]; [apply exec_reset in EX|apply exec_step in EX]; destruct EX as (y & -> & EX); cbn; rewrite EX; reflexivity. }
    cbn [run]. rewrite E2. cbn [bind]. rewrite (IH _ _ _ RN). reflexivity.
Qed.
Lemma run_clip : forall O (E : env A O X) ops e e' xs, run E e ops = Ok (e', xs) -> run (clip_reward E) e ops = Ok (e', map (sign_of_reward true) xs).
Proof.
  intros O E ops. induction ops as [|o ops IH]; intros e e' xs H.
  - cbn in H |- *. inversion H; subst. reflexivity.
  - cbn [run] in H. apply bind_ok in H. destruct H as ([e1 x] & EX & H). apply bind_ok in H. destruct H as ([e2 xs2] & RN & H). inversion H; subst.
    assert (E2 : exec (clip_reward E) e o = Ok (e1, sign_of_reward true x)).
    { destruct o as [|a]; [apply exec_reset in EX|apply exec_step in EX]; destruct EX as (y & -> & EX); cbn; rewrite EX; [reflexivity|].
      destruct y as [ob [n d] dn inf]. unfold qsign. cbn. destruct n; reflexivity. }
    cbn [run]. rewrite E2. cbn [bind]. rewrite (IH _ _ _ RN). reflexivity.
Qed.
Lemma run_flicker : forall O blank coins (E : env A O X) ops k e e' xs, run E e ops = Ok (e', xs) ->
  run (flicker_frame blank E) (coins, k, e) ops = Ok ((coins, k + length xs, e'), frames (fun k o => if coins k then blank o else o) k xs).
Proof.
  intros O blank coins E ops. induction ops as [|o ops IH]; intros k e e' xs H.
  - cbn in H |- *. inversion H; subst. cbn. rewrite Nat.add_0_r. reflexivity.
  - cbn [run] in H. apply bind_ok in H. destruct H as ([e1 x] & EX & H). apply bind_ok in H. destruct H as ([e2 xs2] & RN & H). inversion H; subst.
    assert (E2 : exec (flicker_frame blank E) (coins, k, e) o = Ok ((coins, S k, e1), with_obs (if coins k then blank (out_obs x) else out_obs x) x)).
    { destruct o as [|a]; [apply exec_reset in EX|apply exec_step in EX]; destruct EX as (y & -> & EX); cbn; rewrite EX; reflexivity. }
    cbn [run]. rewrite E2. cbn [bind]. pose proof (IH (S k) _ _ _ RN) as R2. rewrite R2. cbn [bind length frames]. rewrite Nat.add_succ_r. reflexivity.
Qed.
Lemma map_frames : forall O P (f : O -> P) xs k, map (fun x : out O X => with_obs (f (out_obs x)) x) xs = frames (fun _ => f) k xs.
Proof. intros O P f xs. induction xs as [|x xs IH]; intros k; [reflexivity|]. cbn. rewrite (IH (S k)). reflexivity. Qed.
Lemma frames_frames : forall O P Q (f : nat -> O -> P) (g : nat -> P -> Q) (xs : list (out O X)) k, frames g k (frames f k xs) = frames (fun k o => g k (f k o)) k xs.
Proof. intros O P Q f g xs. induction xs as [|x xs IH]; intros k; [reflexivity|]. cbn. rewrite IH. f_equal. destruct x; reflexivity. Qed.
Lemma frames_id : forall O (xs : list (out O X)) k, frames (fun _ o => o) k xs = xs.
Proof. intros O xs. induction xs as [|x xs IH]; intros k; [reflexivity|]. cbn. rewrite IH. f_equal. destruct x as [o|[]]; reflexivity. Qed.
Lemma frames_ext : forall O P (f g : nat -> O -> P) (xs : list (out O X)) k, (forall k o, f k o = g k o) -> frames f k xs = frames g k xs.
Proof. intros O P f g xs. induction xs as [|x xs IH]; intros k H; [reflexivity|]. cbn. rewrite H, (IH (S k) H). reflexivity. Qed.
Lemma frames_sign : forall O P (f : nat -> O -> P) c (xs : list (out O X)) k, frames f k (map (sign_of_reward c) xs) = map (sign_of_reward c) (frames f k xs).
Proof. intros O P f c xs. induction xs as [|x xs IH]; intros k; [reflexivity|]. cbn. rewrite IH. f_equal. destruct x; reflexivity. Qed.
Lemma sign_false : forall O (xs : list (out O X)), map (sign_of_reward false) xs = xs.
Proof. intros O xs. induction xs as [|x xs IH]; [reflexivity|]. cbn. rewrite IH. f_equal. destruct x as [o|[]]; reflexivity. Qed.
Lemma frames_nth : forall O P (f : nat -> O -> P) (xs : list (out O X)) k i x, nth_error xs i = Some x -> nth_error (frames f k xs) i = Some (with_obs (f (k + i) (out_obs x)) x).
Proof.
  intros O P f xs. induction xs as [|y xs IH]; intros k [|i] x H; try discriminate; cbn in *.
  - injection H as ->. rewrite Nat.add_0_r. reflexivity.
  - rewrite (IH (S k) i x H). replace (S k + i) with (k + S i) by lia. reflexivity.
Qed.
Lemma frames_length : forall O P (f : nat -> O -> P) (xs : list (out O X)) k, length (frames f k xs) = length xs.
Proof. intros O P f xs. induction xs as [|x xs IH]; intros k; [reflexivity|]. cbn. rewrite IH. reflexivity. Qed.
Lemma episode_sign : forall O c (xs : list (out O X)), episode (map (sign_of_reward c) xs) = episode xs.
Proof.
  intros O c xs. assert (G : forall ep, fold_left (@next_ep O X) (map (sign_of_reward c) xs) ep = fold_left (@next_ep O X) xs ep); [|exact (G [])].
  induction xs as [|x xs IH]; intros ep; [reflexivity|]. cbn [map fold_left]. rewrite IH. destruct x; reflexivity.
Qed.
Lemma episode_last : forall O (xs : list (out O X)) x, lastn 1 (episode (xs ++ [x])) = [out_obs x].
Proof.
  intros O xs x. unfold episode. rewrite fold_left_app. cbn. destruct x as [o|s]; [reflexivity|]. cbn. unfold lastn. rewrite app_length. cbn.
  replace (length _ + 1 - 1) with (length (fold_left (fun ep x => match x with OReset o => [o] | OStep s => ep ++ [so_obs s] end) xs [])) by lia.
  rewrite skipn_app, skipn_all, Nat.sub_diag. reflexivity.
Qed.
Lemma firstn_snoc : forall T (l : list T) i x, nth_error l i = Some x -> firstn (S i) l = firstn i l ++ [x].
Proof. induction l as [|y l IH]; intros [|i] x H; try discriminate; cbn in *; [injection H as ->; reflexivity|]. f_equal. apply IH. exact H. Qed.

Theorem stack_frames_seen : forall O P (noop fire second : A) opt (warp : O -> P) scaled blank coins (g : live_env A O X),
  let g1 := wrap_calls noop fire second opt g in
  let g2 := wrap_deepmind noop fire second opt warp scaled blank coins g in
  forall ops w xs, run (l_env g1) (l_state g1) (Reset :: ops) = Ok (w, xs) ->
  exists w' ys, run (l_env g2) (l_state g2) (Reset :: ops) = Ok (w', ys) /\ length ys = length xs /\
    forall i x, nth_error xs i = Some x ->
      let ep := episode (firstn (S i) (frames (frame opt warp scaled blank coins) 0 xs)) in
      nth_error ys i = Some (sign_of_reward (clip_rewards opt) (with_obs (if stack_frames opt then window 4 ep else lastn 1 ep) x)).
Proof.
  intros O P noop fire second opt warp scaled blank coins g g1 g2 ops w xs R1. subst g2. unfold wrap_deepmind. fold g1. clearbody g1.
  set (h3 := mk_live (map_obs warp (l_env g1)) (l_state g1)).
  assert (R3 : exists w, run (l_env h3) (l_state h3) (Reset :: ops) = Ok (w, frames (fun _ => warp) 0 xs)).
  { eexists. rewrite <- map_frames. unfold h3. cbn [l_env l_state]. apply (run_map warp) in R1. exact R1. }
  clearbody h3. destruct R3 as [w3 R3].
  set (h4 := if scale opt then _ else h3).
  assert (R4 : exists w, run (l_env h4) (l_state h4) (Reset :: ops) = Ok (w, frames (fun _ o => if scale opt then scaled (warp o) else warp o) 0 xs)).
  { unfold h4. destruct (scale opt); [|exists w3; exact R3]. exists w3. cbn [l_env l_state]. apply (run_map scaled) in R3. rewrite (map_frames _ _ 0), frames_frames in R3. exact R3. }
  clearbody h4. destruct R4 as [w4 R4].
  set (h5 := if clip_rewards opt then _ else h4).
  assert (R5 : exists w, run (l_env h5) (l_state h5) (Reset :: ops) = Ok (w, map (sign_of_reward (clip_rewards opt)) (frames (fun _ o => if scale opt then scaled (warp o) else warp o) 0 xs))).
  { unfold h5. destruct (clip_rewards opt); [|exists w4; rewrite sign_false; exact R4]. exists w4. exact (@run_clip _ _ _ _ _ _ R4). }
  clearbody h5. destruct R5 as [w5 R5].
  set (h6 := if flicker opt then _ else h5).
  assert (R6 : exists w, run (l_env h6) (l_state h6) (Reset :: ops) = Ok (w, map (sign_of_reward (clip_rewards opt)) (frames (frame opt warp scaled blank coins) 0 xs))).
  { unfold h6. destruct (flicker opt) eqn:FL.
    - cbn [l_env l_state]. apply (run_flicker blank coins) with (k := 0) in R5. eexists. rewrite frames_sign, frames_frames in R5. rewrite R5. do 3 f_equal.
      apply frames_ext. intros k o. unfold frame. rewrite FL. reflexivity.
    - exists w5. rewrite R5. do 3 f_equal. apply frames_ext. intros k o. unfold frame. rewrite FL. reflexivity. }
  clearbody h6. destruct R6 as [w6 R6]. set (zs := frames (frame opt warp scaled blank coins) 0 xs) in *.
  assert (ZN : forall i x, nth_error xs i = Some x -> nth_error zs i = Some (with_obs (frame opt warp scaled blank coins i (out_obs x)) x)) by (intros i x H; apply (frames_nth _ _ 0 _ H)).
  assert (ZL : length zs = length xs) by apply frames_length.
  destruct (stack_frames opt); cbn [l_env l_state].
  - destruct (@frame_stack_windows _ _ _ _ 4 _ _ _ _ R6) as (q & ys & RY & LY & NY). exists (q, w6), ys. split; [exact RY|]. split; [rewrite LY, map_length; exact ZL|].
    intros i x H. rewrite (NY i (sign_of_reward (clip_rewards opt) (with_obs (frame opt warp scaled blank coins i (out_obs x)) x))).
    + rewrite firstn_map, episode_sign. destruct x; reflexivity.
    + rewrite nth_error_map, (ZN i x H). reflexivity.
  - apply (run_map (fun o => [o])) in R6. eexists. eexists. split; [exact R6|]. split; [rewrite !map_length; exact ZL|].
    intros i x H. rewrite !nth_error_map, (ZN i x H). cbn [option_map]. f_equal. rewrite (firstn_snoc _ _ (ZN i x H)), episode_last. destruct x; reflexivity.
Qed.
End Frames.
