From Coq Require Import QArith.
From Verif Require Import Base.PyBase Base.ListFacts Model.TrainAgent Model.TrainAsync Spec.AsyncProtocol.
Set Implicit Arguments.
Local Open Scope nat_scope.

Fixpoint sum_of {A} (f : A -> nat) (l : list A) : nat := match l with [] => 0 | x :: l => f x + sum_of f l end.
Lemma sum_upd {A} (f : A -> nat) l : forall i x y, nth_error l i = Some x -> sum_of f (upd l i y) + f x = sum_of f l + f y.
Proof.
  induction l as [|a l IH]; intros [|i] x y H; cbn in *; try discriminate.
  - injection H as ->. lia.
  - specialize (IH i x y H). lia.
Qed.
Lemma sum_le {A} (f g : A -> nat) l : (forall x, In x l -> f x <= g x) -> sum_of f l <= sum_of g l.
Proof. induction l; cbn; intros; auto. specialize (IHl ltac:(auto)). pose proof (H a (or_introl eq_refl)). lia. Qed.
Lemma sum_eq {A} (f g : A -> nat) l : (forall x, In x l -> f x = g x) -> sum_of f l = sum_of g l.
Proof. intros H. apply Nat.le_antisymm; apply sum_le; intros; rewrite H; auto. Qed.
Lemma sum_add {A} (f g : A -> nat) l : sum_of (fun x => f x + g x) l = sum_of f l + sum_of g l.
Proof. induction l; cbn; lia. Qed.
Lemma sum_const {A} k (l : list A) : sum_of (fun _ => k) l = k * length l.
Proof. induction l; cbn; lia. Qed.
Lemma sum_repeat {A} (f : A -> nat) x n : sum_of f (repeat x n) = n * f x.
Proof. induction n; cbn; lia. Qed.
Lemma sum_pos {A} (f : A -> nat) l : 0 < sum_of f l -> exists x, In x l /\ 0 < f x.
Proof.
  induction l as [|a l IH]; cbn; [lia|]. intros H. destruct (f a) eqn:E.
  - destruct IH as (x & ? & ?); [lia|]. eauto.
  - exists a. split; auto. lia.
Qed.
Lemma upd_len {A} (l : list A) i x : length (upd l i x) = length l.
Proof. revert i; induction l; intros [|i]; cbn; auto. Qed.
Lemma upd_nth {A} (l : list A) i j x : nth_error (upd l i x) j = if Nat.eqb i j then (match nth_error l j with Some _ => Some x | None => None end) else nth_error l j.
Proof. revert i j; induction l; intros [|i] [|j]; cbn; auto. now destruct (Nat.eqb i j). Qed.
Lemma in_upd {A} (l : list A) i x y : In y (upd l i x) -> y = x \/ In y l.
Proof. revert i; induction l; intros [|i]; cbn; intuition. apply IHl in H0. intuition. Qed.
Lemma Forall2_upd {A B} (R : A -> B -> Prop) l m i x y : Forall2 R l m -> R x y -> Forall2 R (upd l i x) (upd m i y).
Proof. intros H; revert i; induction H; intros [|i] Hxy; cbn; constructor; auto. Qed.
Lemma Forall2_nth {A B} (R : A -> B -> Prop) l m i x : Forall2 R l m -> nth_error l i = Some x -> exists y, nth_error m i = Some y /\ R x y.
Proof. intros H; revert i; induction H; intros [|i] E; cbn in *; try discriminate; eauto. injection E as ->. eauto. Qed.
Lemma Forall2_imp {A B} (R S : A -> B -> Prop) l m : (forall x y, R x y -> S x y) -> Forall2 R l m -> Forall2 S l m.
Proof. induction 2; constructor; auto. Qed.

Section T.
  Context {Obs Act Rw : Type}.
  Variable rzero : Rw.
  Variable c : aconfig.
  Notation aev := (@aev Obs Act Rw).
  Notation proc := (@proc Obs Act Rw).
  Notation astate := (@astate Obs Act Rw).
  Notation yphase := (@yphase Obs Act Rw).
  Notation K := (ac_hooks c).
  Notation steps := (ac_steps c).

  (** The first counter value at which a process stops. *)
  Definition lastv : Z := Z.max steps 1.

  Definition pcb (w : proc) : bool := match w_pc w with PCount _ => true | _ => false end.
  Definition finb (w : proc) : bool := (lastv <=? w_gt w)%Z.
  Definition atb (w : proc) : bool := (w_gt w =? lastv)%Z.
  Definition savedb (w : proc) : bool := (w_gt w =? steps)%Z && match w_pc w with PSuccess | PClose | PExit => true | _ => false end.
  Definition winb (w : proc) : bool := w_succ w.
  Definition winsavedb (w : proc) : bool := w_succ w && match w_pc w with PClose | PExit => true | _ => false end.
  Definition cnt (f : proc -> bool) : list proc -> nat := sum_of (fun w => Nat.b2n (f w)).

  Definition pos_pc (pc : @apc Obs Act Rw) : nat :=
    match pc with
    | PCount _ => 0 | PHook _ k => 1 + k | PStop _ => 3 + K | PEval => 4 + K | PSetDone => 6 + K
    | PEpisode => 6 + K | PAgain => 7 + K | PReset => 8 + K | PAct _ _ => 9 + K | PStep _ => 10 + K
    | PFinish => 8 + K | PSuccess => 9 + K | PClose => 10 + K | PExit => 11 + K
    end.
  Definition pos (w : proc) : nat := pos_pc (w_pc w) + match w_st w with Live => 0 | Failing => 1 | Dead _ => 2 end.

  Definition early (pc : @apc Obs Act Rw) : bool := match pc with PReset | PAct _ _ | PStep _ | PCount _ => true | _ => false end.
  Definition late (pc : @apc Obs Act Rw) : bool := match pc with PFinish | PSuccess | PClose | PExit => true | _ => false end.

  (** Per process. *)
  Definition winv (sh : shared) (w : proc) : Prop :=
    (0 <= w_gt w <= sh_counter sh)%Z /\ (0 <= w_len w)%Z /\
    (early (w_pc w) = true -> (w_gt w = 0 \/ w_gt w < steps)%Z) /\
    (early (w_pc w) = false -> (1 <= w_gt w)%Z) /\
    (late (w_pc w) = true -> (steps <= w_gt w)%Z \/ sh_done sh = true) /\
    (w_succ w = true -> late (w_pc w) = true) /\
    (match w_pc w with PHook _ k => k <= K | _ => True end).

  (** Its phase. *)
  Definition okp (seen : Prop) (w : proc) (p : yphase) : Prop :=
    match w_st w with
    | Dead true => p = YCrashed
    | _ =>
      let len := Z.to_nat (w_len w) in
      match w_pc w with
      | PReset => p = YBetween (w_gt w)
      | PAct o r => p = YAct o r len \/ exists x, p = YHooks x len (w_gt w) K /\ o = x_obs x /\ r = x_rew x /\ ~ over c x len /\ (w_gt w < steps)%Z
      | PStep a => p = YStep a len
      | PCount x => p = YCount x len
      | PHook x k => p = YHooks x len (w_gt w) k
      | PStop x => p = YHooks x len (w_gt w) K /\ (over c x len \/ (steps <= w_gt w)%Z \/ seen)
      | PEval => p = YStopped (w_gt w) /\ ac_eval c = true
      | PEpisode => (p = YStopped (w_gt w) /\ ac_eval c = false) \/ p = YFailed (w_gt w)
      | PSetDone => p = YWon (w_gt w) /\ seen
      | PAgain => p = YBetween (w_gt w)
      | PFinish => if w_succ w then p = YWon (w_gt w) else p = YBetween (w_gt w) \/ p = YWon (w_gt w)
      | PSuccess => if (w_gt w =? steps)%Z then p = YSaved
                    else if w_succ w then p = YWon (w_gt w) else p = YBetween (w_gt w) \/ p = YWon (w_gt w)
      | PClose => if w_succ w then p = YSavedWin
                  else if (w_gt w =? steps)%Z then p = YSaved else p = YBetween (w_gt w) \/ p = YWon (w_gt w)
      | PExit => p = YClosed
      end
    end.

  Lemma okp_mono (s s' : Prop) w p : (s -> s') -> okp s w p -> okp s' w p.
  Proof. intros H. unfold okp. destruct (w_st w) as [| |[|]]; destruct (w_pc w); intuition. Qed.

  Definition setting (w : proc) : bool := match w_pc w with PSetDone => true | _ => false end.

  Record INV (N n : nat) (s : astate) (phs : list yphase) (seen : Prop) : Prop := mk_INV {
    i_len : length (as_procs s) = N;
    i_path : ypath rzero c (repeat (YBetween 0) N, False) (as_log s) (phs, seen);
    i_okp : Forall2 (okp seen) (as_procs s) phs;
    i_w : forall w, In w (as_procs s) -> winv (as_shared s) w;
    i_counts : a_counts (as_log s) = one_to (Z.to_nat (sh_counter (as_shared s)));
    i_pos : (0 <= sh_counter (as_shared s))%Z;
    i_eps : a_episodes (as_log s) = seq 1 (sh_episodes (as_shared s));
    i_fin : cnt finb (as_procs s) = Z.to_nat (sh_counter (as_shared s) - lastv + 1);
    i_at : cnt atb (as_procs s) = if (lastv <=? sh_counter (as_shared s))%Z then 1 else 0;
    i_steps : number is_step (as_log s) = Z.to_nat (sh_counter (as_shared s)) + cnt pcb (as_procs s);
    i_saved : number is_finish (as_log s) = cnt savedb (as_procs s);
    i_win : cnt winb (as_procs s) = Nat.b2n (sh_done (as_shared s));
    i_winsaved : number is_win (as_log s) = cnt winsavedb (as_procs s);
    i_seen : sh_done (as_shared s) = true -> seen;
    i_done : seen -> sh_done (as_shared s) = true \/ exists w, In w (as_procs s) /\ setting w = true;
    i_n : n <= (12 + K) * number is_step (as_log s) + sum_of pos (as_procs s) }.

  Lemma a_counts_app (l m : list (nat * aev)) : a_counts (l ++ m) = a_counts l ++ a_counts m.
  Proof. induction l as [|[i []] l IH]; cbn; auto. now rewrite IH. Qed.
  Lemma a_episodes_app (l m : list (nat * aev)) : a_episodes (l ++ m) = a_episodes l ++ a_episodes m.
  Proof. induction l as [|[i []] l IH]; cbn; auto. now rewrite IH. Qed.
  Lemma number_app f (l m : list (nat * aev)) : number f (l ++ m) = number f l + number f m.
  Proof. unfold number. rewrite filter_app, app_length. auto. Qed.
  Lemma one_to_S n : one_to (S n) = one_to n ++ [(Z.of_nat n + 1)%Z].
  Proof. unfold one_to. rewrite seq_S, map_app. reflexivity. Qed.

  Lemma init_INV N : INV N 0 (astate0 N) (repeat (YBetween 0) N) False.
  Proof.
    constructor; cbn [as_procs as_log as_shared astate0 sh_counter sh_episodes sh_done].
    - apply repeat_length.
    - constructor.
    - induction N; cbn; constructor; auto. reflexivity.
    - intros w Hw. apply repeat_spec in Hw. subst. unfold winv; cbn. intuition (try lia; try discriminate).
    - reflexivity.
    - lia.
    - reflexivity.
    - unfold cnt. rewrite sum_repeat. unfold finb, proc0, lastv; cbn [w_gt]. destruct (Z.max steps 1 <=? 0)%Z eqn:E; cbn; lia.
    - unfold cnt. rewrite sum_repeat. unfold atb, proc0, lastv; cbn [w_gt]. destruct (Z.max steps 1 <=? 0)%Z eqn:E; [lia|].
      destruct (0 =? Z.max steps 1)%Z eqn:E2; cbn; lia.
    - unfold cnt. rewrite sum_repeat. cbn. lia.
    - unfold cnt. rewrite sum_repeat. unfold savedb. cbn. rewrite andb_false_r. cbn. lia.
    - unfold cnt. rewrite sum_repeat. cbn. lia.
    - unfold cnt. rewrite sum_repeat. cbn. lia.
    - discriminate.
    - tauto.
    - lia.
  Qed.

  (** What one action does, seen from the process. *)
  Record LOC (i : nat) (sh : shared) (w : proc) (w' : proc) (sh' : shared) (es : list aev) : Prop := mk_LOC {
    l_path : forall (seen : Prop) p, (sh_done sh = true -> seen) -> okp seen w p ->
       (es = [] /\ okp seen w' p) \/
       (exists e p', es = [e] /\ ystep rzero c seen i p e p' /\ okp (seen \/ success c e) w' p');
    l_winv : winv sh' w';
    l_mono : (sh_counter sh <= sh_counter sh')%Z /\ (sh_done sh = true -> sh_done sh' = true);
    l_counts : (sh_counter sh' = sh_counter sh /\ a_counts (map (pair i) es) = []) \/
        (sh_counter sh' = (sh_counter sh + 1)%Z /\ a_counts (map (pair i) es) = [(sh_counter sh + 1)%Z]);
    l_eps : (sh_episodes sh' = sh_episodes sh /\ a_episodes (map (pair i) es) = []) \/
        (sh_episodes sh' = S (sh_episodes sh) /\ a_episodes (map (pair i) es) = [S (sh_episodes sh)]);
    l_fin : Nat.b2n (finb w') + Z.to_nat (sh_counter sh - lastv + 1) = Nat.b2n (finb w) + Z.to_nat (sh_counter sh' - lastv + 1);
    l_at : Nat.b2n (atb w') + (if (lastv <=? sh_counter sh)%Z then 1 else 0) = Nat.b2n (atb w) + (if (lastv <=? sh_counter sh')%Z then 1 else 0);
    l_steps : Z.to_nat (sh_counter sh') + Nat.b2n (pcb w') = Z.to_nat (sh_counter sh) + Nat.b2n (pcb w) + number is_step (map (pair i) es);
    l_saved : number is_finish (map (pair i) es) + Nat.b2n (savedb w) = Nat.b2n (savedb w');
    l_win : Nat.b2n (sh_done sh') + Nat.b2n (w_succ w) = Nat.b2n (sh_done sh) + Nat.b2n (w_succ w');
    l_winsaved : number is_win (map (pair i) es) + Nat.b2n (winsavedb w) = Nat.b2n (winsavedb w');
    l_setting : setting w = true -> setting w' = true \/ sh_done sh' = true;
    l_done : sh_done sh' = true -> sh_done sh = true \/ (setting w = true /\ w_st w = Live);
    l_success : forall e, In e es -> success c e -> setting w' = true;
    l_pos : pos w + 1 <= (12 + K) * number is_step (map (pair i) es) + pos w' }.

  Lemma good_success v n s : good_score c s = true <-> success c (@AEval Obs Act Rw v n s).
  Proof.
    unfold good_score, success. destruct s as [s|]; [|intuition discriminate]. destruct (ac_success c) as [q|].
    - rewrite Qle_bool_iff. split; [eauto|]. intros (q' & [= <-] & H). auto.
    - split; [discriminate|]. intros (q & [=] & _).
  Qed.

  Lemma over_b (x : @xans Obs Rw) l : (0 <= l)%Z -> (x_done x || (eqb_opt l (ac_maxlen c) || x_needs x)) = true <-> over c x (Z.to_nat l).
  Proof.
    intros Hl. unfold over, eqb_opt. rewrite !orb_true_iff. rewrite Z2Nat.id by auto. destruct (ac_maxlen c) as [m|].
    - rewrite Z.eqb_eq. intuition (subst; auto); try congruence. 
    - intuition discriminate.
  Qed.

  Lemma ystep_here seen i p e p' : ystep rzero c seen i p e p' -> forall w' (es : list aev), es = [e] -> okp (seen \/ success c e) w' p' ->
    (es = [] /\ okp seen w' p) \/ exists e0 p0, es = [e0] /\ ystep rzero c seen i p e0 p0 /\ okp (seen \/ success c e0) w' p0.
  Proof. intros. right. eauto 10. Qed.

  Lemma step_LOC i sh w r w' sh' es : winv sh w -> (0 <= sh_counter sh)%Z ->
    (w_succ w = true -> sh_done sh = true) ->
    proc_step rzero c i sh w r = Some (w', sh', es) -> LOC i sh w w' sh' es.
  Proof.
    intros (W1 & W2 & W3 & W4 & W5 & W6 & W7) Hpos Hsd H. unfold proc_step in H.
    assert (Hl : (1 <= lastv)%Z) by (unfold lastv; lia). assert (Hl2 : (steps <= lastv)%Z) by (unfold lastv; lia).
    assert (Hl3 : (lastv = steps \/ steps < 1)%Z) by (unfold lastv; lia).
    destruct w as [pc gt ge len succ st]. cbn [w_pc w_gt w_ge w_len w_succ w_st] in *.
    destruct st as [| |sv].
    2: { (* the handler *)
      assert (Hw' : exists sv, w' = mk_proc pc gt ge len succ (Dead sv) /\ sh' = sh /\
                (if sv then i = 0 /\ es = [ASave AExcept gt] else es = [])).
      { destruct r; try discriminate.
        - destruct (Nat.eqb i 0) eqn:Ei; injection H as <- <- <-; [exists true|exists false]; repeat split; auto. lia.
        - injection H as <- <- <-. exists false. auto. }
      destruct Hw' as (sv & -> & -> & Hes).
      constructor; try (destruct sv; [destruct Hes as [-> ->]|subst es]; cbn; auto; lia).
      - intros seen p Hseen Hp. destruct sv.
        + destruct Hes as [-> ->]. right. exists (ASave AExcept gt), YCrashed. split; [auto|]. split; [constructor|]. reflexivity.
        + left. split; [auto|]. exact Hp.
      - unfold winv. cbn [w_pc w_gt w_ge w_len w_succ w_st]. auto 10.
      - intros e He Hs. destruct sv; [destruct Hes as [-> ->]; destruct He as [<-|[]]; destruct Hs|subst es; destruct He].
      - unfold pos; cbn [w_pc w_st]; lia. }
    2: { destruct r; discriminate. }
    assert (Hsilent : forall w'' : proc, pos (mk_proc pc gt ge len succ Live) + 1 <= pos w'' -> w_gt w'' = gt -> w_succ w'' = succ ->
      winv sh w'' -> pcb w'' = pcb (mk_proc pc gt ge len succ Live) -> savedb w'' = savedb (mk_proc pc gt ge len succ Live) ->
      winsavedb w'' = winsavedb (mk_proc pc gt ge len succ Live) -> setting w'' = setting (mk_proc pc gt ge len succ Live) ->
      (forall (seen : Prop) p, (sh_done sh = true -> seen) -> okp seen (mk_proc pc gt ge len succ Live) p -> okp seen w'' p) ->
      LOC i sh (mk_proc pc gt ge len succ Live) w'' sh []).
    { intros w'' E1 E2 E3 E4 E5 E6 E7 E8 E9. clear - E1 E2 E3 E4 E5 E6 E7 E8 E9. assert (Hm : map (pair i) (@nil aev) = []) by reflexivity. constructor; rewrite ?Hm, ?E5, ?E6, ?E7, ?E8.
      - intros seen p Hs Hp. left. auto.
      - exact E4.
      - split; [apply Z.le_refl|auto].
      - left. auto.
      - left. auto.
      - unfold finb. rewrite E2. reflexivity.
      - unfold atb. rewrite E2. reflexivity.
      - unfold number. cbn [filter length]. now rewrite Nat.add_0_r.
      - reflexivity.
      - rewrite E3. reflexivity.
      - reflexivity.
      - auto.
      - auto.
      - intros e [].
      - unfold number. cbn [filter length]. clear - E1. lia. }
    assert (Hexc : r = RExc \/ live_step rzero c sh (mk_proc pc gt ge len succ Live) r = Some (w', sh', es)).
    { destruct r; auto. }
    destruct Hexc as [->|Hlive].
    { assert (Hw' : exists st, st <> Live /\ st <> Dead true /\ w' = mk_proc pc gt ge len succ st /\ sh' = sh /\ es = []).
      { destruct pc; try discriminate; injection H as <- <- <-; cbn [in_try]; eexists; (split; [|split; [|split; [reflexivity|auto]]]); discriminate. }
      destruct Hw' as (st & Hst1 & Hst2 & -> & -> & ->). apply Hsilent; auto.
      - unfold pos. cbn [w_pc w_st]. destruct st; [congruence| |]; lia.
      - unfold winv. cbn [w_pc w_gt w_ge w_len w_succ w_st]. auto 10.
      - intros seen p _. unfold okp. cbn [w_st]. destruct st as [| |[|]]; try congruence; auto. }
    clear H. unfold live_step in Hlive. cbn [w_pc w_gt w_ge w_len w_succ w_st] in Hlive.
    Ltac lv := unfold winv, finb, atb, pcb, savedb, winsavedb, pos, pos_pc, setting, early, late, goto in *;
               cbn [w_pc w_gt w_ge w_len w_succ w_st sh_counter sh_episodes sh_done map a_counts a_episodes number filter length is_step is_finish is_win snd
                    Nat.b2n andb orb negb] in *.
    Ltac tfin := try (rewrite ?andb_false_r; reflexivity); try (let e := fresh in let Hs := fresh in intros e [<-|[]] Hs; destruct Hs; fail);
      try (intuition (try lia; try discriminate; auto); fail).
    destruct pc; destruct r; try discriminate.
    - (* PReset *)
      injection Hlive as <- <- <-. constructor; lv; tfin.
      + intros seen p Hseen Hp. right. cbn in Hp. subst p. exists (AReset o), (YAct o rzero 0). split; [auto|]. split; [constructor; intuition lia|]. left. reflexivity.
    - (* PAct *)
      injection Hlive as <- <- <-. constructor; lv; tfin.
      + intros seen p Hseen Hp. right. cbn in Hp. exists (AAct o r0 a), (YStep a (Z.to_nat len)). split; [auto|].
        destruct Hp as [->|(x & -> & -> & -> & Hov & Hlt)]; (split; [constructor; auto|reflexivity]).
    - (* PStep *)
      injection Hlive as <- <- <-. constructor; lv; tfin.
      + intros seen p Hseen Hp. right. cbn in Hp. subst p. eexists _, _. split; [reflexivity|]. split; [constructor|].
        cbn. f_equal. lia.
    - (* PCount *)
      injection Hlive as <- <- <-. specialize (W3 eq_refl).
      constructor; lv; tfin.
      + intros seen p Hseen Hp. right. cbn in Hp. subst p. eexists _, _. split; [reflexivity|]. split; [constructor|].
        reflexivity.
      + destruct (sh_counter sh + 1 =? lastv)%Z eqn:E1, (gt =? lastv)%Z eqn:E2, (lastv <=? sh_counter sh)%Z eqn:E3, (lastv <=? sh_counter sh + 1)%Z eqn:E4; cbn [Nat.b2n]; lia.
    - (* PHook *)
      specialize (W4 eq_refl). destruct (k <? K) eqn:Ek.
      + injection Hlive as <- <- <-. constructor; lv; tfin.
        * intros seen p Hseen Hp. right. cbn in Hp. subst p. eexists _, _. split; [reflexivity|]. split; [constructor; lia|]. reflexivity.
      + assert (k = K) by lia. subst k.
        destruct (x_done x || (eqb_opt len (ac_maxlen c) || x_needs x) || (steps <=? gt)%Z || sh_done sh) eqn:Eb;
          injection Hlive as <- <- <-; apply Hsilent; lv; auto; try lia; tfin.
        * intros seen p Hseen Hp. cbn in Hp |- *. subst p. split; [auto|]. apply orb_true_iff in Eb. destruct Eb as [Eb|Eb]; [|right; right; auto].
          apply orb_true_iff in Eb. destruct Eb as [Eb|Eb]; [left; apply over_b; auto|right; left; lia].
        * apply orb_false_iff in Eb as [Eb Ed]. apply orb_false_iff in Eb as [Eb Eg].
          intros seen p Hseen Hp. cbn in Hp |- *. subst p. right. exists x. split; [auto|]. split; [auto|]. split; [auto|]. split; [|lia].
          intros Hov. apply over_b in Hov; auto. congruence.
    - (* PStop *)
      specialize (W4 eq_refl).
      injection Hlive as <- <- <-. constructor; lv; destruct (ac_eval c) eqn:Eev; 
        tfin.
      + intros seen p Hseen Hp. right. cbn in Hp. destruct Hp as [-> Hp]. eexists _, _. split; [reflexivity|]. split; [constructor; auto|]. cbn. auto.
      + intros seen p Hseen Hp. right. cbn in Hp. destruct Hp as [-> Hp]. eexists _, _. split; [reflexivity|]. split; [constructor; auto|]. cbn. auto.
    - (* PEval *)
      specialize (W4 eq_refl). pose proof (good_success gt ge s) as Hg.
      injection Hlive as <- <- <-. constructor; lv; destruct (good_score c s) eqn:Eg; 
        tfin.
      + intros seen p Hseen Hp. right. cbn in Hp. destruct Hp as [-> Hp]. eexists _, _. split; [reflexivity|].
        split; [apply y_eval_yes; [auto|apply Hg; auto]|]. cbn. split; [auto|]. right. apply Hg. auto.
      + intros seen p Hseen Hp. right. cbn in Hp. destruct Hp as [-> Hp]. eexists _, _. split; [reflexivity|].
        split; [apply y_eval_no; [auto|intros Hs; apply Hg in Hs; discriminate]|]. cbn. auto.
      + intros e [<-|[]] Hs. apply Hg in Hs. discriminate.
    - (* PSetDone *)
      specialize (W4 eq_refl). injection Hlive as <- <- <-.
      assert (Hsu : succ = false) by (destruct succ; auto; specialize (W6 eq_refl); discriminate). subst succ.
      constructor; lv;  tfin.
      + intros seen p Hseen Hp. left. split; [auto|]. cbn in Hp |- *. destruct Hp as [-> Hp]. destruct (sh_done sh); auto.
    - (* PEpisode *)
      specialize (W4 eq_refl). injection Hlive as <- <- <-.
      constructor; lv;  tfin.
      + intros seen p Hseen Hp. right. cbn in Hp. eexists _, _. split; [reflexivity|].
        destruct Hp as [[-> Hp]| ->]; (split; [constructor; auto|]); reflexivity.
    - (* PAgain *)
      specialize (W4 eq_refl).
      assert (Hsu : succ = false) by (destruct succ; auto; specialize (W6 eq_refl); discriminate). subst succ.
      destruct ((steps <=? gt)%Z || sh_done sh) eqn:Eb; injection Hlive as <- <- <-; apply Hsilent; lv; auto; try lia; try (rewrite ?andb_false_r; reflexivity);
        try (intros seen p Hseen Hp; cbn in Hp |- *; auto; fail).
    - (* PFinish *)
      specialize (W4 eq_refl). injection Hlive as <- <- <-. destruct (gt =? steps)%Z eqn:Eg.
      + constructor; lv; rewrite ?Eg;  tfin.
        * intros seen p Hseen Hp. right. cbn in Hp. assert (gt = steps) by lia. exists (ASave AFinish steps), YSaved. split; [auto|].
          split; [|cbn; rewrite Eg; auto]. destruct succ; [subst p; subst gt; constructor; auto|].
          destruct Hp as [-> | ->]; subst gt; constructor; auto.
      + constructor; lv; rewrite ?Eg;  tfin.
        intros seen p Hseen Hp. left. split; [auto|]. cbn in Hp |- *. rewrite Eg. auto.
    - (* PSuccess *)
      specialize (W4 eq_refl). injection Hlive as <- <- <-. destruct succ.
      + constructor; lv; rewrite ?andb_true_r;  tfin.
        * intros seen p Hseen Hp. right. cbn in Hp. exists (ASave ASuccess gt), YSavedWin. split; [auto|]. split; [|reflexivity].
          destruct (gt =? steps)%Z eqn:Eg; subst p; constructor; lia.
      + constructor; lv; rewrite ?andb_true_r;  tfin.
    - (* PClose *)
      specialize (W4 eq_refl). injection Hlive as <- <- <-. 
      constructor; lv; rewrite ?andb_true_r;  tfin.
      + intros seen p Hseen Hp. right. cbn in Hp. exists AClose, YClosed. split; [auto|]. split; [|reflexivity].
        destruct succ; [subst p; constructor|]. destruct (gt =? steps)%Z eqn:Eg; [subst p; constructor|].
        destruct Hp as [-> | ->]; [|constructor; lia]. constructor; [auto|]. destruct (W5 eq_refl) as [H|H]; [left; lia|right]. split; [auto|lia].
  Qed.

  Lemma winv_mono sh sh' w : (sh_counter sh <= sh_counter sh')%Z -> (sh_done sh = true -> sh_done sh' = true) -> winv sh w -> winv sh' w.
  Proof. unfold winv. intros. intuition lia. Qed.
  Lemma in_sum_pos {A} (f : A -> nat) l x : In x l -> f x <= sum_of f l.
  Proof. induction l; cbn; [tauto|]. intros [->|H]; [lia|]. specialize (IHl H). lia. Qed.

  Lemma step_INV N n s phs seen i r s' : INV N n s phs seen -> astep rzero c s (i, r) = Some s' ->
    exists phs' seen', INV N (S n) s' phs' seen'.
  Proof.
    intros [I1 I2 I3 I4 I5 I6 I7 I8 I9 I10 I11 I12 I13 I14 I15 I16] H. unfold astep in H.
    destruct (nth_error (as_procs s) i) as [w|] eqn:Ew; [|discriminate].
    destruct (proc_step rzero c i (as_shared s) w r) as [[[w' sh'] es]|] eqn:Es; [|discriminate]. injection H as <-.
    set (sh := as_shared s) in *. pose proof (nth_error_In _ _ Ew) as Hin.
    assert (Hsd : w_succ w = true -> sh_done sh = true).
    { intros Hs. pose proof (in_sum_pos (fun w => Nat.b2n (winb w)) _ _ Hin) as Hp. unfold cnt in I12. cbn beta in Hp. unfold winb in Hp at 1.
      rewrite Hs in Hp. cbn [Nat.b2n] in Hp. destruct (sh_done sh); auto. cbn [Nat.b2n] in I12. lia. }
    assert (HL : LOC i sh w w' sh' es) by (eapply step_LOC; eauto). destruct HL as [L1 L2 [L3 L3'] L4 L5 L6 L7 L8 L9 L10 L11 L12 L13 L14 L15].
    destruct (Forall2_nth _ I3 Ew) as (p & Hp & Hok).
    assert (Hphs : exists phs' (seen' : Prop), ypath rzero c (repeat (YBetween 0) N, False) (as_log s ++ map (pair i) es) (phs', seen') /\
       Forall2 (okp seen') (upd (as_procs s) i w') phs' /\ (seen -> seen') /\ (seen' -> seen \/ exists e, In e es /\ success c e)).
    { destruct (L1 seen p I14 Hok) as [[-> Hok']|(e & p' & -> & Hst & Hok')].
      - exists phs, seen. cbn [map]. rewrite app_nil_r. split; [auto|]. split; [|auto].
        assert (Hu : upd phs i p = phs). { clear -Hp. revert i Hp. induction phs; intros [|i] Hp; cbn in *; try discriminate; [congruence|]. f_equal. auto. }
        rewrite <- Hu. apply Forall2_upd; auto.
      - exists (upd phs i p'), (seen \/ success c e). cbn [map]. split; [econstructor; eauto|]. split.
        + apply Forall2_upd; auto. eapply Forall2_imp; [|exact I3]. intros x y. apply okp_mono. auto.
        + split; [auto|]. intros [?|?]; [auto|]. right. exists e. cbn. auto. }
    destruct Hphs as (phs' & seen' & Hpath & Hf & Hs1 & Hs2). exists phs', seen'.
    Ltac su f Ew w' := let H := fresh "H" in pose proof (sum_upd f _ _ w' Ew) as H; cbv beta in H.
    constructor; cbn [as_procs as_log as_shared]; fold sh; rewrite ?upd_len, ?a_counts_app, ?a_episodes_app, ?number_app; auto.
    - intros w0 Hw0. apply in_upd in Hw0 as [->|Hw0]; [auto|]. apply (winv_mono (sh := sh)); auto.
    - rewrite I5. destruct L4 as [[-> ->]|[-> ->]]; [now rewrite app_nil_r|].
      replace (Z.to_nat (sh_counter sh + 1)) with (S (Z.to_nat (sh_counter sh))) by (clear - I6; lia). rewrite one_to_S. repeat f_equal. clear - I6; lia.
    - clear - I6 L3; lia.
    - rewrite I7. destruct L5 as [[-> ->]|[-> ->]]; [now rewrite app_nil_r|]. rewrite seq_S. reflexivity.
    - unfold cnt in *. su (fun w : proc => Nat.b2n (finb w)) Ew w'. clear - H I8 L6. lia.
    - unfold cnt in *. su (fun w : proc => Nat.b2n (atb w)) Ew w'. clear - H I9 L7. lia.
    - unfold cnt in *. su (fun w : proc => Nat.b2n (pcb w)) Ew w'. clear - H I10 L8. lia.
    - unfold cnt in *. su (fun w : proc => Nat.b2n (savedb w)) Ew w'. clear - H I11 L9. lia.
    - unfold cnt in *. su (fun w : proc => Nat.b2n (winb w)) Ew w'. change (winb w) with (w_succ w) in H. change (winb w') with (w_succ w') in H. clear - H I12 L10. lia.
    - unfold cnt in *. su (fun w : proc => Nat.b2n (winsavedb w)) Ew w'. clear - H I13 L11. lia.
    - intros Hd. apply Hs1. destruct (L13 Hd) as [Hd0|[Hset Hlive]]; [auto|].
      unfold okp in Hok. rewrite Hlive in Hok. unfold setting in Hset. destruct (w_pc w); try discriminate. tauto.
    - intros Hse. destruct (Hs2 Hse) as [Hse0|(e & He & Hsu)].
      + destruct (I15 Hse0) as [Hd|(w0 & Hw0 & Hset)]; [auto|].
        apply In_nth_error in Hw0 as (j & Hj). destruct (Nat.eq_dec j i) as [->|Hne].
        * rewrite Ew in Hj. injection Hj as <-. destruct (L12 Hset) as [Hs'|Hd]; [right|left; auto].
          exists w'. split; [|auto]. eapply nth_error_In with (n := i). rewrite upd_nth, Nat.eqb_refl, Ew. auto.
        * right. exists w0. split; [|auto]. eapply nth_error_In with (n := j). rewrite upd_nth.
          destruct (Nat.eqb i j) eqn:E; [apply Nat.eqb_eq in E; congruence|auto].
      + right. exists w'. split; [|eapply L14; eauto]. eapply nth_error_In with (n := i). rewrite upd_nth, Nat.eqb_refl, Ew. auto.
    - su (pos : proc -> nat) Ew w'. clear - H I16 L15. nia.
  Qed.

  Lemma arun_INV sched : forall N n s phs seen s', INV N n s phs seen -> arun rzero c s sched = Some s' ->
    exists phs' seen', INV N (n + length sched) s' phs' seen'.
  Proof.
    induction sched as [|[i r] sched IH]; intros N n s phs seen s' HI H; cbn [arun] in H.
    - injection H as <-. cbn [length]. rewrite Nat.add_0_r. eauto.
    - destruct (astep rzero c s (i, r)) as [s1|] eqn:E; [|discriminate].
      destruct (@step_INV _ _ _ _ _ _ _ _ HI E) as (phs1 & seen1 & HI1). cbn [length]. rewrite <- Nat.add_succ_comm. eauto.
  Qed.

  Lemma pos_bound w : winv (mk_shared 0 0 false) w \/ (match w_pc w with PHook _ k => k <= K | _ => True end) -> pos w <= 13 + K.
  Proof.
    intros H. assert (H' : match w_pc w with PHook _ k => k <= K | _ => True end).
    { destruct H as [H|H]; [apply H|auto]. }
    unfold pos, pos_pc. destruct (w_pc w); destruct (w_st w); lia.
  Qed.

  (** At most [lastv + N - 1] environment steps. *)
  Lemma steps_bound N n s phs seen : INV N n s phs seen -> (Z.of_nat (number is_step (as_log s)) <= lastv + Z.of_nat N - 1)%Z \/ N = 0.
  Proof.
    intros [I1 I2 I3 I4 I5 I6 I7 I8 I9 I10 I11 I12 I13 I14 I15 I16].
    assert (Hdisj : cnt finb (as_procs s) + cnt pcb (as_procs s) <= N).
    { unfold cnt. rewrite <- sum_add. rewrite <- I1. rewrite <- (Nat.mul_1_l (length _)), <- (sum_const 1). apply sum_le. intros w Hw.
      destruct (I4 w Hw) as (H1 & _ & H3 & _). unfold finb, pcb, lastv, early in *.
      destruct (w_pc w); cbn [Nat.b2n]; try (destruct (Z.max steps 1 <=? w_gt w)%Z; cbn [Nat.b2n]; lia).
      specialize (H3 eq_refl). destruct (Z.max steps 1 <=? w_gt w)%Z eqn:E; cbn [Nat.b2n]; lia. }
    destruct N; [auto|left]. rewrite I10. unfold lastv in *. lia.
  Qed.

  Lemma closed_exit N n s phs seen : INV N n s phs seen -> all_closed phs -> forall w, In w (as_procs s) -> w_pc w = PExit.
  Proof.
    intros HI Hc w Hw. apply In_nth_error in Hw as (j & Hj). destruct (Forall2_nth _ (i_okp HI) Hj) as (p & Hp & Hok).
    apply nth_error_In in Hp. apply Hc in Hp. subst p. unfold okp in Hok.
    destruct (w_st w) as [| |[|]]; try discriminate;
      (destruct (w_pc w); auto; exfalso;
       repeat match type of Hok with
              | context [if ?b then _ else _] => destruct b
              end; firstorder discriminate).
  Qed.

  Lemma async_ok N sched (s : astate) : arun rzero c (astate0 N) sched = Some s ->
    let log := as_log s in
    exists phs seen, ypath rzero c (repeat (YBetween 0) N, False) log (phs, seen) /\
    a_counts log = one_to (length (a_counts log)) /\
    a_episodes log = seq 1 (length (a_episodes log)) /\
    (1 <= N -> (Z.of_nat (number is_step log) <= Z.max steps 1 + Z.of_nat N - 1)%Z) /\
    number is_finish log <= 1 /\ number is_win log <= 1 /\
    length sched <= (13 + K) * (number is_step log + N) /\
    (1 <= N -> (1 <= steps)%Z -> all_closed phs ->
       number is_step log = length (a_counts log) /\
       ((steps <= Z.of_nat (length (a_counts log)))%Z \/ seen) /\
       number is_finish log = (if (steps <=? Z.of_nat (length (a_counts log)))%Z then 1 else 0) /\
       (number is_win log = 1 <-> seen)).
  Proof.
    intros H log. destruct (@arun_INV _ _ _ _ _ _ _ (init_INV N) H) as (phs & seen & HI). exists phs, seen.
    pose proof (steps_bound HI) as Hb. pose proof (closed_exit HI) as Hex.
    destruct HI as [I1 I2 I3 I4 I5 I6 I7 I8 I9 I10 I11 I12 I13 I14 I15 I16]. fold log in I2, I5, I7, I10, I11, I13, I16, Hb.
    set (cn := sh_counter (as_shared s)) in *.
    assert (Hlc : length (a_counts log) = Z.to_nat cn).
    { rewrite I5. unfold one_to. now rewrite map_length, seq_length. }
    assert (Hat : cnt savedb (as_procs s) <= 1).
    { destruct (Z_le_gt_dec 1 steps) as [H1|H1].
      - apply Nat.le_trans with (cnt atb (as_procs s)); [|rewrite I9; destruct (_ <=? _)%Z; lia].
        apply sum_le. intros w Hw. unfold savedb, atb, lastv. rewrite Z.max_l by lia. destruct (w_gt w =? steps)%Z; cbn; [|lia].
        destruct (w_pc w); cbn; lia.
      - replace (cnt savedb (as_procs s)) with 0; [lia|]. symmetry. unfold cnt.
        rewrite (sum_eq _ (fun _ => 0)); [rewrite sum_const; lia|]. intros w Hw. destruct (I4 w Hw) as (W1 & _ & _ & W4 & _).
        unfold savedb. unfold early in W4. destruct (w_gt w =? steps)%Z eqn:E; [|auto]. destruct (w_pc w); cbn; auto; specialize (W4 eq_refl); lia. }
    assert (Hwin : cnt winsavedb (as_procs s) <= Nat.b2n (sh_done (as_shared s))).
    { rewrite <- I12. apply sum_le. intros w Hw. unfold winsavedb, winb. destruct (w_succ w); cbn; [|lia]. destruct (w_pc w); cbn; lia. }
    split; [auto|]. split; [rewrite Hlc; auto|]. split; [rewrite I7, seq_length; auto|].
    split; [intros; unfold lastv in Hb; lia|]. split; [lia|]. split; [destruct (sh_done (as_shared s)); cbn [Nat.b2n] in *; lia|].
    split.
    { assert (sum_of pos (as_procs s) <= (13 + K) * N).
      { rewrite <- I1, <- sum_const. apply sum_le. intros w Hw. apply pos_bound. right. apply (I4 w Hw). }
      cbn [plus] in I16. nia. }
    intros HN Hst Hc. specialize (Hex Hc).
    assert (Hpcb : cnt pcb (as_procs s) = 0).
    { unfold cnt. rewrite (sum_eq _ (fun _ => 0)); [rewrite sum_const; lia|]. intros w Hw. unfold pcb. rewrite (Hex w Hw). auto. }
    split; [rewrite I10; lia|].
    assert (Hsn : seen <-> sh_done (as_shared s) = true).
    { split; [|auto]. intros Hs. destruct (I15 Hs) as [Hd|(w & Hw & Hset)]; [auto|]. unfold setting in Hset. rewrite (Hex w Hw) in Hset. discriminate. }
    split.
    { destruct (as_procs s) as [|w ws] eqn:Ews; [cbn in I1; lia|]. destruct (I4 w (or_introl eq_refl)) as (W1 & _ & _ & _ & W5 & _).
      rewrite (Hex w (or_introl eq_refl)) in W5. destruct (W5 eq_refl) as [H5|H5]; [left; rewrite Hlc; fold cn in W1; lia|right; tauto]. }
    split.
    { rewrite I11. transitivity (cnt atb (as_procs s)).
      - apply sum_eq. intros w Hw. unfold savedb, atb, lastv. rewrite (Hex w Hw), Z.max_l by lia. now rewrite andb_true_r.
      - rewrite I9, Hlc. unfold lastv. rewrite Z.max_l, Z2Nat.id by lia. auto. }
    rewrite Hsn, I13. assert (Heq : cnt winsavedb (as_procs s) = cnt winb (as_procs s)).
    { apply sum_eq. intros w Hw. unfold winsavedb, winb. rewrite (Hex w Hw). now rewrite andb_true_r. }
    rewrite Heq, I12. destruct (sh_done (as_shared s)); cbn; intuition lia.
  Qed.

  (** A process that has not ended can always go on. *)
  Lemma async_progress (s : astate) i w (o : Obs) (a : Act) (rw : Rw) : nth_error (as_procs s) i = Some w ->
    w_pc w <> PExit -> w_st w = Live -> exists r, r <> RExc /\ astep rzero c s (i, r) <> None.
  Proof.
    intros Hn Hpc Hst. unfold astep. rewrite Hn. unfold proc_step. rewrite Hst. unfold live_step.
    destruct (w_pc w); [exists (RObs o)|exists (RAct a)|exists (RStep (o, rw, false, false))|exists ROk|exists ROk|exists ROk|exists (RScore None)|exists ROk..];
      (split; [discriminate|]); try discriminate; try congruence.
    destruct (_ <? _); [discriminate|]. destruct (_ || _); discriminate.
  Qed.
End T.
