(** Proofs about the Atari environment. *)
From Coq Require Import List Arith ZArith Bool Lia.
From Verif Require Import Base.PyBase Model.ALEEnv Spec.ALESpec.
Import ListNotations.

Lemma skipn_skipn_add : forall X (l : list X) a b, skipn a (skipn b l) = skipn (a + b) l.
Proof. intros X l a b. revert l. induction b as [|b IH]; intros l; [rewrite Nat.add_0_r; reflexivity|]. destruct l as [|x l]; [rewrite !skipn_nil; reflexivity|]. rewrite Nat.add_succ_r. cbn. apply IH. Qed.
Lemma zsum_from : forall l z, fold_left Z.add l z = (z + zsum l)%Z.
Proof. unfold zsum. induction l as [|x l IH]; intros z; cbn; [lia|]. rewrite (IH (z + x)%Z), (IH x). lia. Qed.
Lemma zsum_cat : forall a b, zsum (a ++ b) = (zsum a + zsum b)%Z.
Proof. intros. unfold zsum at 1. rewrite fold_left_app. fold (zsum a). apply zsum_from. Qed.

Section Facts.
  Variables E S I : Type.
  Variable act : E -> nat -> E * Z.
  Variable screen : E -> S.
  Variable lives : E -> nat.
  Variable over : E -> bool.
  Variable reset_game : E -> E.
  Variable join : S -> S -> S.
  Variable process : S -> I.
  Variable blank : I.
  Variable legal : list nat.
  Variables n fs : nat.
  Variable treat : bool.
  Hypothesis FS : 1 <= fs.

  Notation term := (is_terminal over treat).
  Notation frames := (frames act screen lives over legal treat).
  Notation step := (step act screen lives over join process legal n fs treat).
  Notation steps := (steps act screen lives over join process legal n fs treat).
  Notation reset := (reset act screen lives over reset_game join process blank n).
  Notation play := (play act).
  Notation after := (after act).
  Notation stops := (stops act lives over treat).
  Notation ready := (ready lives n).
  Notation first_image := (first_image screen join process).
  Notation image := (image screen join process act).
  Notation repeated := (repeated act lives over treat fs).

  Lemma play_app : forall l1 l2 e, play e (l1 ++ l2) = (fst (play (fst (play e l1)) l2), (snd (play e l1) + snd (play (fst (play e l1)) l2))%Z).
  Proof.
    induction l1 as [|a l1 IH]; intros l2 e; cbn.
    - destruct (play e l2); reflexivity.
    - destruct (act e a) as [e1 r]. rewrite IH. destruct (play e1 l1) as [e2 t]. cbn. f_equal. lia.
  Qed.
  Lemma after_S : forall e a k, after e a (Datatypes.S k) = fst (act (after e a k) a).
  Proof.
    intros e a k. unfold after. replace (Datatypes.S k) with (k + 1) by lia. rewrite repeat_app, play_app. cbn. destruct (act (fst (play e (repeat a k))) a); reflexivity.
  Qed.
  Lemma total_S : forall e a k, snd (play e (repeat a (Datatypes.S k))) = (snd (play e (repeat a k)) + snd (act (after e a k) a))%Z.
  Proof.
    intros e a k. unfold after. replace (Datatypes.S k) with (k + 1) by lia. rewrite repeat_app, play_app. cbn. destruct (act (fst (play e (repeat a k))) a); cbn. lia.
  Qed.
  Lemma zsum_app : forall l r, zsum (l ++ [r]) = (zsum l + r)%Z.
  Proof. intros. unfold zsum. rewrite fold_left_app. reflexivity. Qed.

  (** What the loop has done after [k] frames. *)
  Lemma frames_ok : forall action a e0, py_get legal action = Ok a -> forall remaining k (st : ale E S I) rewards, 1 <= remaining -> k + remaining = fs ->
    emu st = after e0 a k -> a_lives st = lives (after e0 a k) -> zsum rewards = snd (play e0 (repeat a k)) -> (forall j, 1 <= j <= k -> stops e0 a j = false) ->
    exists (k' : nat) (st' : ale E S I) (rewards' : list Z), frames remaining action st rewards = Ok (st', rewards') /\ k < k' /\ repeated e0 a k' /\
      emu st' = after e0 a k' /\ a_lives st' = lives (after e0 a k') /\ zsum rewards' = snd (play e0 (repeat a k')) /\ term st' = stops e0 a k' /\
      screens st' = screens st /\ (term st' = false -> last_raw st' = Some (screen (after e0 a (k' - 1)))).
  Proof.
    intros action a e0 PG. induction remaining as [|rest IH]; intros k st rewards L SUM HE HL HR HS; [lia|]. cbn [ALEEnv.frames]. rewrite PG. cbn [bind].
    destruct (act (emu st) a) as [e r] eqn:A. rewrite HE in A. assert (E1 : e = after e0 a (Datatypes.S k)) by (rewrite after_S, A; reflexivity).
    set (st1 := mk_ale e (lives e) (lives e <? a_lives st) (if Nat.eqb rest 0 then Some (screen (emu st)) else last_raw st) (screens st) (a_reward st)).
    assert (T1 : term st1 = stops e0 a (Datatypes.S k)).
    { unfold is_terminal, stops. cbn [lives_lost emu st1]. replace (Datatypes.S k - 1) with k by lia. rewrite <- E1, <- HL. destruct treat; cbn; [apply orb_comm|rewrite orb_false_r; reflexivity]. }
    assert (R1 : zsum (rewards ++ [r]) = snd (play e0 (repeat a (Datatypes.S k)))) by (rewrite zsum_app, total_S, A, HR; reflexivity).
    destruct (term st1) eqn:T.
    - exists (Datatypes.S k), st1, (rewards ++ [r]). split; [reflexivity|]. split; [lia|]. split.
      + split; [lia|]. split; [intros j Hj; apply HS; lia|]. intros _. congruence.
      + split; [exact E1|]. split; [cbn; rewrite <- E1; reflexivity|]. split; [exact R1|]. split; [congruence|]. split; [reflexivity|]. congruence.
    - destruct rest as [|rest].
      + cbn [ALEEnv.frames]. exists (Datatypes.S k), st1, (rewards ++ [r]). split; [reflexivity|]. split; [lia|]. split.
        * split; [lia|]. split; [intros j Hj; apply HS; lia|]. lia.
        * split; [exact E1|]. split; [cbn; rewrite <- E1; reflexivity|]. split; [exact R1|]. split; [congruence|]. split; [reflexivity|]. intros _. cbn. replace (k - 0) with k by lia. rewrite HE. reflexivity.
      + destruct (IH (Datatypes.S k) st1 (rewards ++ [r])) as (k' & st' & rw & F & L1 & K & H1 & H2 & H3 & H4 & H5 & H6).
        * lia.
        * lia.
        * exact E1.
        * cbn. rewrite <- E1. reflexivity.
        * exact R1.
        * intros j Hj. destruct (Nat.eq_dec j (Datatypes.S k)) as [->|]; [congruence|apply HS; lia].
        * exists k', st', rw. split; [exact F|]. split; [lia|]. auto 10.
  Qed.

  Lemma last_len : forall (l : list I) x, length l = n -> length (deque n (l ++ [x])) = n.
  Proof. intros l x H. unfold deque. rewrite skipn_length, app_length. cbn. lia. Qed.
  Lemma state_ready : forall st : ale E S I, length (screens st) = n -> state n st = Ok (screens st).
  Proof. intros st H. unfold state. rewrite H, Nat.eqb_refl. reflexivity. Qed.

  Theorem step_ok : forall (st : ale E S I) action a, ready st -> term st = false -> py_get legal action = Ok a ->
    exists (k : nat) (st' : ale E S I), repeated (emu st) a k /\ emu st' = after (emu st) a k /\ ready st' /\ term st' = stops (emu st) a k /\
      screens st' = (if stops (emu st) a k then screens st
                     else last_items n (screens st ++ [process (join (screen (after (emu st) a k)) (screen (after (emu st) a (k - 1))))])) /\
      step action st = Ok (screens st', snd (play (emu st) (repeat a k)), stops (emu st) a k, st').
  Proof.
    intros st action a (RL & RN) T PG. destruct (frames_ok action a (emu st) PG fs 0 st []) as (k & st1 & rw & F & L & K & H1 & H2 & H3 & H4 & H5 & H6).
    - lia.
    - lia.
    - reflexivity.
    - exact RL.
    - reflexivity.
    - lia.
    - exists k. unfold ALEEnv.step, receive_action. rewrite T. cbn [negb]. rewrite F. cbn [bind]. destruct (term st1) eqn:T1.
      + cbn [bind]. exists (mk_ale (emu st1) (a_lives st1) (lives_lost st1) (last_raw st1) (screens st1) (zsum rw)). split; [exact K|]. split; [exact H1|]. split; [split; cbn; congruence|].
        split; [rewrite <- H4; exact T1|]. rewrite <- H4. split; [exact H5|]. rewrite state_ready by (cbn; congruence). cbn [bind a_reward screens]. rewrite H3. do 2 f_equal. f_equal. exact T1.
      + unfold current_screen. rewrite (H6 eq_refl). cbn [bind emu a_lives lives_lost last_raw screens a_reward].
        exists (mk_ale (emu st1) (a_lives st1) (lives_lost st1) None (append n (screens st1) (process (join (screen (emu st1)) (screen (after (emu st) a (k - 1)))))) (zsum rw)).
        assert (LN : length (append n (screens st1) (process (join (screen (emu st1)) (screen (after (emu st) a (k - 1)))))) = n) by (apply last_len; congruence).
        split; [exact K|]. split; [exact H1|]. split; [split; [cbn; congruence|exact LN]|]. split; [rewrite <- H4; exact T1|]. rewrite <- H4. cbn [screens]. split.
        * unfold append, deque, last_items. rewrite H5, H1. reflexivity.
        * rewrite state_ready by exact LN. cbn [bind a_reward screens]. rewrite H3. do 2 f_equal. f_equal. exact T1.
  Qed.
  Theorem step_after_end : forall (st : ale E S I) action, term st = true -> step action st = Raise AssertionError.
  Proof. intros st action T. unfold ALEEnv.step, receive_action. rewrite T. reflexivity. Qed.

  Lemma nullops_play : forall k e, nullops act k e = after e 0 k.
  Proof. unfold after. induction k as [|k IH]; intros e; cbn; [reflexivity|]. rewrite IH. destruct (act e 0) as [e1 r]; cbn. destruct (play e1 (repeat 0 k)); reflexivity. Qed.
  Theorem reset_ok : forall k (st : ale E S I), exists st' : ale E S I,
    let e := after (if over (emu st) then reset_game (emu st) else emu st) 0 k in
    reset k st = Ok (last_items n (repeat blank (n - 1) ++ [first_image e]), st') /\ emu st' = e /\ ready st' /\ term st' = over e /\
    screens st' = last_items n (repeat blank (n - 1) ++ [first_image e]) /\ length (screens st') = n.
  Proof.
    intros k st. unfold ALEEnv.reset, initialize. rewrite nullops_play. set (e := after _ 0 k). cbn [current_screen last_raw bind emu screens a_reward lives_lost a_lives].
    assert (LN : length (deque n (repeat blank (n - 1) ++ [process (join (screen e) (screen e))])) = n) by (unfold deque; rewrite skipn_length, app_length, repeat_length; cbn; lia).
    eexists. cbn zeta. rewrite state_ready by exact LN. cbn [bind screens]. split; [reflexivity|]. split; [reflexivity|]. split; [split; [reflexivity|exact LN]|].
    split; [unfold is_terminal; cbn; destruct treat; reflexivity|]. split; [reflexivity|exact LN].
  Qed.

  (** ** A whole episode *)
  Lemma last_items_app : forall (l : list I) x, last_items n (last_items n l ++ [x]) = last_items n (l ++ [x]).
  Proof.
    intros l x. unfold last_items. rewrite !app_length, skipn_length. cbn [length].
    destruct (le_lt_dec (length l) n) as [L|L].
    - replace (length l - n) with 0 by lia. cbn [skipn]. f_equal. lia.
    - replace (length l - (length l - n) + 1 - n) with 1 by lia. replace (length l + 1 - n) with (1 + (length l - n)) by lia.
      rewrite (skipn_app (1 + (length l - n))). rewrite skipn_app, skipn_length.
      rewrite skipn_skipn_add. f_equal. f_equal. lia.
  Qed.
  Theorem episode_ok : forall actions shown (st : ale E S I) out st', ready st -> screens st = last_items n shown ->
    steps actions st = Ok (out, st') ->
    exists (al : list (nat * nat)) (images : list I), length al = length actions /\ length out = length actions /\
      emu st' = fst (play (emu st) (expand al)) /\ zsum (map (fun x => snd (fst x)) out) = snd (play (emu st) (expand al)) /\
      (forall i action, nth_error actions i = Some action -> exists a k o,
         let e := fst (play (emu st) (expand (firstn i al))) in
         py_get legal action = Ok a /\ nth_error al i = Some (a, k) /\ repeated e a k /\
         nth_error out i = Some (o, snd (play e (repeat a k)), stops e a k) /\
         (stops e a k = true -> Datatypes.S i = length actions) /\ (stops e a k = false -> nth_error images i = Some (image e a k)) /\
         o = last_items n (shown ++ firstn (if stops e a k then i else Datatypes.S i) images)).
  Proof.
    induction actions as [|action actions IH]; intros shown st out st' RD SC H; cbn [ALEEnv.steps] in H.
    - injection H as <- <-. exists [], []. cbn. split; [reflexivity|]. split; [reflexivity|]. split; [reflexivity|]. split; [reflexivity|]. intros [|i] b Hb; discriminate.
    - destruct (term st) eqn:T; [rewrite step_after_end in H by exact T; discriminate|].
      destruct (py_get legal action) as [a|] eqn:PG.
      2:{ exfalso. unfold ALEEnv.step, receive_action in H. rewrite T in H. cbn [negb] in H. destruct fs as [|f]; [lia|]. cbn [ALEEnv.frames] in H. rewrite PG in H. discriminate. }
      destruct (step_ok st action a RD T PG) as (k & st1 & K & E1 & RD1 & T1 & S1 & ST). rewrite ST in H. cbn [bind] in H.
      destruct (steps actions st1) as [[out1 st2]|] eqn:ST1; [|discriminate]. cbn [bind] in H. injection H as <- <-.
      fold (image (emu st) a k) in S1.
      destruct (stops (emu st) a k) eqn:D.
      + (* terminal: no further step can have succeeded *)
        destruct actions as [|action' actions]; [|cbn [ALEEnv.steps] in ST1; rewrite step_after_end in ST1 by congruence; discriminate].
        cbn in ST1. injection ST1 as <- <-. exists [(a, k)], []. split; [reflexivity|]. split; [reflexivity|]. split; [|split].
        * cbn [expand]. rewrite app_nil_r. exact E1.
        * cbn [expand map snd fst]. rewrite app_nil_r. unfold zsum. cbn. reflexivity.
        * intros [|i] b Hb; cbn in Hb; [injection Hb as <-|destruct i; discriminate]. exists a, k, (screens st1). cbn zeta. cbn [firstn expand ALESpec.play fst nth_error length]. rewrite D. split; [exact PG|]. split; [reflexivity|]. split; [exact K|].
          split; [reflexivity|]. split; [reflexivity|]. split; [discriminate|]. rewrite app_nil_r. congruence.
      + assert (SC1 : screens st1 = last_items n (shown ++ [image (emu st) a k])) by (rewrite S1, SC; apply last_items_app).
        destruct (IH (shown ++ [image (emu st) a k]) st1 out1 st2 RD1 SC1 ST1) as (al & images & L1 & L2 & L4 & L5 & L6).
        exists ((a, k) :: al), (image (emu st) a k :: images). split; [cbn; congruence|]. split; [cbn; congruence|]. split; [|split].
        * cbn [expand]. rewrite play_app. cbn [fst]. unfold after in E1. rewrite <- E1. exact L4.
        * cbn [expand map snd fst]. rewrite play_app. cbn [snd]. unfold after in E1. rewrite <- E1, <- L5. change (?x :: ?l) with ([x] ++ l). rewrite zsum_cat. unfold zsum at 1. cbn. lia.
        * intros [|i] b Hb; cbn [nth_error] in Hb.
          -- injection Hb as <-. exists a, k, (screens st1). cbn zeta. cbn [firstn expand ALESpec.play fst nth_error length]. rewrite D. split; [exact PG|]. split; [reflexivity|]. split; [exact K|]. split; [reflexivity|]. split; [discriminate|]. split; [reflexivity|]. exact SC1.
          -- destruct (L6 i b Hb) as (a' & k' & o & H1 & H2 & H3 & H4 & H5 & H6 & H7). exists a', k', o. cbn zeta. cbn [firstn expand]. rewrite play_app. cbn [fst]. unfold after in E1. rewrite <- E1.
             split; [exact H1|]. split; [exact H2|]. split; [exact H3|]. split; [exact H4|]. split; [intros X; cbn; rewrite <- (H5 X); reflexivity|]. split; [exact H6|].
             rewrite H7, <- app_assoc. cbn [app]. destruct (stops (fst (play (emu st1) (expand (firstn i al)))) a' k'); reflexivity.
  Qed.
  (** The null actions may end the game: then no step is possible after reset. *)
  Theorem over_in_nullops : forall k (st : ale E S I), over (after (if over (emu st) then reset_game (emu st) else emu st) 0 k) = true ->
    exists o st', reset k st = Ok (o, st') /\ forall action, step action st' = Raise AssertionError.
  Proof.
    intros k st H. destruct (reset_ok k st) as (st' & R & _ & _ & T & _). cbn zeta in *. eexists _, st'. split; [exact R|]. intros action. apply step_after_end. congruence.
  Qed.
End Facts.
