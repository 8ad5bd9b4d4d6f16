(** Proofs for C37 and C58. *)
From Coq Require Import QArith Permutation.
From Verif Require Import Base.PyBase Model.Returns Model.PPODataset Spec.NStepSpec Spec.PPOSpec Proofs.TrainAsyncProofs Proofs.ReturnProofs.
Set Implicit Arguments.
Local Open Scope nat_scope.

Lemma upd_snoc : forall X (l : list X) x y, upd (l ++ [x]) (length l) y = l ++ [y].
Proof. induction l as [|z l IH]; intros x y; [reflexivity|]. cbn [app length upd]. rewrite IH. reflexivity. Qed.

(** ** Cutting *)
Section Cut.
  Context {X : Type}.
  Implicit Types (s : list X) (stack subset : list (list X)).

  Lemma limit_one_spec : forall max_len, 0 < max_len -> forall fuel s, length s <= fuel -> s <> [] ->
    exists g, limit_one fuel max_len s = Ok g /\ cut_of max_len s g.
  Proof.
    intros max_len Hm. induction fuel as [|fuel IH]; intros s Hf Hs.
    - destruct s; [congruence|cbn in Hf; lia].
    - cbn [limit_one]. destruct (Nat.ltb_spec max_len (length s)) as [L|L].
      + destruct (IH (skipn max_len s)) as (g & E & C & pre & lastp & G & F & B).
        * rewrite skipn_length. lia.
        * intros N. apply (f_equal (@length X)) in N. rewrite skipn_length in N. cbn in N. lia.
        * rewrite E. cbn [bind]. eexists. split; [reflexivity|]. split; [cbn [concat]; rewrite C; apply firstn_skipn|].
          exists (firstn max_len s :: pre), lastp. rewrite G. split; [reflexivity|]. split; [|exact B].
          constructor; [|exact F]. rewrite firstn_length. lia.
      + assert (0 < length s) by (destruct s; [congruence|cbn; lia]).
        replace (Nat.ltb 0 (length s)) with true by (symmetry; apply Nat.ltb_lt; lia).
        replace (Nat.leb (length s) max_len) with true by (symmetry; apply Nat.leb_le; lia). cbn [andb].
        exists [s]. split; [reflexivity|]. split; [cbn; apply app_nil_r|]. exists [], s. auto.
  Qed.

  Theorem limit_spec : forall (seqs : list (list X)) max_len, 0 < max_len -> (forall s, In s seqs -> s <> []) ->
    exists groups, limit_sequence_length seqs max_len = Ok (concat groups) /\ Forall2 (cut_of max_len) seqs groups.
  Proof.
    intros seqs max_len Hm. unfold limit_sequence_length. replace (Nat.ltb 0 max_len) with true by (symmetry; apply Nat.ltb_lt; lia).
    induction seqs as [|s seqs IH]; intros H.
    - exists []. cbn. auto.
    - destruct (@limit_one_spec max_len Hm (length s) s (le_n _)) as (g & E & C); [apply H; left; reflexivity|].
      destruct IH as (gs & E' & F); [intros; apply H; right; assumption|].
      cbn [limit_all]. rewrite E. cbn [bind]. rewrite E'. cbn [bind]. exists (g :: gs). auto.
  Qed.

  Lemma limit_empty : forall (pre post : list (list X)) max_len, (forall s, In s pre -> s <> []) -> 0 < max_len ->
    limit_sequence_length (pre ++ [] :: post) max_len = Raise AssertionError.
  Proof.
    intros pre post max_len H Hm. unfold limit_sequence_length. replace (Nat.ltb 0 max_len) with true by (symmetry; apply Nat.ltb_lt; lia).
    induction pre as [|s pre IH].
    - cbn [app limit_all limit_one length]. destruct (Nat.ltb_spec max_len 0) as [L|L]; [lia|]. reflexivity.
    - cbn [app limit_all]. destruct (@limit_one_spec max_len Hm (length s) s (le_n _)) as (g & E & _); [apply H; left; reflexivity|].
      rewrite E. cbn [bind]. rewrite IH by (intros; apply H; right; assumption). reflexivity.
  Qed.

  Notation tot l := (list_sum (map (@length X) l)).

  Lemma tot_app : forall a b : list (list X), tot (a ++ b) = tot a + tot b.
  Proof. intros. rewrite map_app, list_sum_app. reflexivity. Qed.
  Lemma tot_concat : forall a : list (list X), length (concat a) = tot a.
  Proof. induction a as [|x a IH]; [reflexivity|]. cbn [concat map]. rewrite app_length, IH. reflexivity. Qed.

  Lemma tot_cons : forall (x : list X) (l : list (list X)), tot (x :: l) = length x + tot l.
  Proof. reflexivity. Qed.

  Lemma fill_spec : forall n stack subset count, count < n ->
    (count + tot stack < n /\ fill n stack subset count = Raise IndexError) \/
    (exists taken x rest, stack = taken ++ x :: rest /\ count + tot taken < n /\ n <= count + tot taken + length x /\
       fill n stack subset count = Ok (subset ++ taken ++ [x], rest, count + tot taken + length x)).
  Proof.
    intros n stack. induction stack as [|s stack IH]; intros subset count H; cbn [fill];
      replace (Nat.ltb count n) with true by (symmetry; apply Nat.ltb_lt; lia).
    - left. cbn. split; [lia|reflexivity].
    - rewrite tot_cons. destruct (Nat.lt_ge_cases (count + length s) n) as [L|L].
      + destruct (IH (subset ++ [s]) (count + length s) L) as [[A B]|(taken & x & rest & E & A & B & C)].
        * left. split; [lia|exact B].
        * right. exists (s :: taken), x, rest. split; [rewrite E; reflexivity|]. rewrite tot_cons.
          split; [lia|]. split; [lia|]. rewrite C. rewrite <- app_assoc. cbn [app]. do 2 f_equal. lia.
      + right. exists [], s, stack. split; [reflexivity|]. cbn [map list_sum fold_right]. split; [lia|]. split; [lia|].
        destruct stack; cbn [fill]; replace (Nat.ltb (count + length s) n) with false by (symmetry; apply Nat.ltb_ge; lia); cbn [app]; do 2 f_equal; lia.
  Qed.

  Lemma fragment_refl : forall l : list X, l <> [] -> fragment l l.
  Proof. intros l H. split; [exact H|]. exists [], []. rewrite app_nil_r. reflexivity. Qed.
  Lemma fragment_trans : forall a b c : list X, fragment a b -> fragment b c -> fragment a c.
  Proof.
    intros a b c [H1 (x & y & E1)] [_ (z & w & E2)]. split; [exact H1|]. exists (z ++ x), (y ++ w). rewrite E2, E1, !app_assoc. reflexivity.
  Qed.

  Lemma yield_unfold : forall fuel n stack, stack <> [] -> yield_subsets (S fuel) n stack =
    match (let! f := fill n stack [] 0 in
           let '(subset, stack, count) := f : list (list X) * list (list X) * nat in
           let! sp := split_last n subset stack count in
           assert! Nat.eqb (tot (fst sp)) n in Ok sp) with
    | Raise e => ([], Raise e)
    | Ok (subset, stack) => let (out, r) := yield_subsets fuel n stack in (subset :: out, r)
    end.
  Proof. intros fuel n [|s stack] H; [congruence|reflexivity]. Qed.

  Lemma yield_spec : forall n, 0 < n -> forall fuel stack, tot stack < fuel -> (forall s, In s stack -> s <> []) ->
    exists out left r, yield_subsets fuel n stack = (out, r) /\
      concat (concat out) ++ left = concat stack /\ length left < n /\ (r = if Nat.eqb (length left) 0 then Ok tt else Raise IndexError) /\
      Forall (fun subset => tot subset = n /\ forall p, In p subset -> exists s, In s stack /\ fragment p s) out.
  Proof.
    intros n Hn. induction fuel as [|fuel IH]; intros stack Hf Hs; [lia|].
    destruct stack as [|s0 stack0]; [exists [], [], (Ok tt); cbn; auto|].
    assert (Hne : s0 :: stack0 <> []) by discriminate. set (stack := s0 :: stack0) in *. rewrite (yield_unfold _ _ Hne).
    destruct (@fill_spec n stack [] 0 Hn) as [[A B]|(taken & x & rest & E & A & B & C)].
    - rewrite B. cbn [bind]. exists [], (concat stack), (Raise IndexError). cbn [concat app].
      rewrite tot_concat. split; [reflexivity|]. split; [reflexivity|]. split; [lia|]. split; [|constructor].
      assert (0 < tot stack). { unfold stack. rewrite tot_cons. assert (s0 <> []) by (apply Hs; left; reflexivity). destruct s0; [congruence|cbn; lia]. }
      destruct (Nat.eqb_spec (tot stack) 0); [lia|reflexivity].
    - rewrite C. cbn [bind app Nat.add] in *. set (count := tot taken + length x) in *.
      assert (Hx : x <> []). { apply Hs. rewrite E. apply in_app_iff. right. left. reflexivity. }
      assert (Lx : 0 < length x) by (destruct x; [congruence|cbn; lia]).
      assert (Htaken : forall p, In p taken -> In p stack) by (intros p Hp; rewrite E; apply in_app_iff; left; exact Hp).
      assert (Hxin : In x stack) by (rewrite E; apply in_app_iff; right; left; reflexivity).
      assert (Hrest : forall p, In p rest -> In p stack) by (intros p Hp; rewrite E; apply in_app_iff; right; right; exact Hp).
      assert (Tst : tot stack = tot taken + length x + tot rest) by (rewrite E, tot_app; rewrite tot_cons; lia).
      assert (S : exists x1 stack', split_last n (taken ++ [x]) rest count = Ok (taken ++ [x1], stack') /\
         tot (taken ++ [x1]) = n /\ fragment x1 x /\ concat stack = concat (taken ++ [x1]) ++ concat stack' /\
         tot stack' = tot stack - n /\ (forall p, In p stack' -> exists s, In s stack /\ fragment p s)).
      { unfold split_last. destruct (Nat.ltb_spec n count) as [L|L].
        - rewrite (@py_get_last _ (taken ++ [x]) x) by (rewrite app_length; cbn [length]; rewrite nth_error_app2 by lia; replace (length taken + 1 - 1 - length taken) with 0 by lia; reflexivity).
          cbn [bind]. replace (Nat.ltb 0 (count - n)) with true by (symmetry; apply Nat.ltb_lt; lia).
          rewrite py_set_last by (destruct taken; discriminate). cbn [bind].
          set (e := length x - (count - n)). assert (He : 0 < e < length x) by (unfold e, count in *; lia).
          exists (firstn e x), (skipn e x :: rest). split.
          { do 2 f_equal. rewrite app_length. cbn [length]. replace (length taken + 1 - 1) with (length taken) by lia.
            apply upd_snoc. }
          split; [rewrite tot_app, tot_cons; cbn [map list_sum fold_right]; rewrite firstn_length; unfold e, count in *; lia|].
          split. { split; [intros N; apply (f_equal (@length X)) in N; rewrite firstn_length in N; cbn in N; lia|]. exists [], (skipn e x). cbn [app]. symmetry. apply firstn_skipn. }
          split. { rewrite E, !concat_app. cbn [concat]. rewrite app_nil_r. rewrite <- !app_assoc. f_equal. rewrite app_assoc, firstn_skipn. reflexivity. }
          split. { rewrite tot_cons, skipn_length. unfold e, count in *. lia. }
          intros p [<-|Hp].
          + exists x. split; [exact Hxin|]. split; [intros N; apply (f_equal (@length X)) in N; rewrite skipn_length in N; cbn in N; lia|].
            exists (firstn e x), []. rewrite app_nil_r. symmetry. apply firstn_skipn.
          + exists p. split; [apply Hrest, Hp|]. apply fragment_refl, Hs, Hrest, Hp.
        - exists x, rest. split; [reflexivity|]. split; [rewrite tot_app, tot_cons; cbn [map list_sum fold_right]; unfold count in *; lia|].
          split; [apply fragment_refl, Hx|]. split; [rewrite E, !concat_app; cbn [concat]; rewrite app_nil_r, <- app_assoc; reflexivity|].
          split; [unfold count in *; lia|]. intros p Hp. exists p. split; [apply Hrest, Hp|]. apply fragment_refl, Hs, Hrest, Hp. }
      destruct S as (x1 & stack' & ES & ET & Fx & EC & TS & HS). rewrite ES. cbn [bind fst]. rewrite ET, Nat.eqb_refl.
      destruct (IH stack') as (out & left & r & Y & Y1 & Y2 & Y3 & Y4).
      + unfold count in *. lia.
      + intros p Hp. destruct (HS p Hp) as (s & _ & [N _]). exact N.
      + rewrite Y. exists ((taken ++ [x1]) :: out), left, r. split; [reflexivity|].
        split. { cbn [concat]. rewrite concat_app, <- app_assoc, Y1, EC. reflexivity. }
        split; [exact Y2|]. split; [exact Y3|]. constructor.
        * split; [exact ET|]. intros p Hp. apply in_app_iff in Hp. destruct Hp as [Hp|[<-|[]]].
          -- exists p. split; [apply Htaken, Hp|]. apply fragment_refl, Hs, Htaken, Hp.
          -- exists x. auto.
        * eapply Forall_impl; [|exact Y4]. intros sub [T1 T2]. split; [exact T1|]. intros p Hp. destruct (T2 p Hp) as (s & Hin & Fr).
          destruct (HS s Hin) as (s' & Hin' & Fr'). exists s'. split; [exact Hin'|]. eapply fragment_trans; eassumption.
  Qed.

  (** The general behaviour of the minibatch generator. *)
  Theorem minibatches_spec : forall (seqs : list (list X)) n, 0 < n -> (forall s, In s seqs -> s <> []) ->
    exists out left, minibatches seqs n = (out, if Nat.eqb (length (concat seqs) mod n) 0 then Ok tt else Raise IndexError) /\
      concat (concat out) ++ left = concat seqs /\ length left = length (concat seqs) mod n /\
      forall subset, In subset out -> length (concat subset) = n /\ forall p, In p subset -> exists s, In s seqs /\ fragment p s.
  Proof.
    intros seqs n Hn Hs. unfold minibatches. replace (Nat.ltb 0 n) with true by (symmetry; apply Nat.ltb_lt; lia).
    destruct (@yield_spec n Hn (S (length (concat seqs))) seqs) as (out & left & r & Y & C & L & R & F).
    - rewrite tot_concat. lia.
    - exact Hs.
    - assert (M : length left = length (concat seqs) mod n).
      { rewrite <- C, app_length. assert (E : length (concat (concat out)) = length out * n).
        { clear -F. induction F as [|sub out [T _] F IH]; [reflexivity|]. cbn [concat]. rewrite concat_app, app_length, IH, tot_concat, T. cbn. lia. }
        rewrite E, Nat.add_comm, Nat.mod_add by lia. symmetry. apply Nat.mod_small, L. }
      exists out, left. rewrite Y, R, M. split; [reflexivity|]. split; [exact C|]. split; [reflexivity|].
      intros sub Hsub. rewrite Forall_forall in F. destruct (F sub Hsub) as [T1 T2]. rewrite tot_concat. auto.
  Qed.
End Cut.

(** ** Collecting *)
Section Agent.
  Context {Obs A : Type}.
  Variable u : nat.
  Hypothesis u_pos : 0 < u.
  Notation step := (step Obs A).
  Notation tr := (@transition_of Obs A).
  Notation run := (ppo_run u).

  Lemma size_concat : forall d : list (list (ptr Obs A)), length (concat d) = size d.
  Proof. induction d as [|e d IH]; [reflexivity|]. cbn [concat]. rewrite app_length, IH. reflexivity. Qed.
  Lemma size_app : forall a b : list (list (ptr Obs A)), size (a ++ b) = size a + size b.
  Proof. intros. unfold size. rewrite map_app, list_sum_app. reflexivity. Qed.
  Lemma size_nonempty : forall e : list (ptr Obs A), size (nonempty e) = length e.
  Proof. intros [|x e]; cbn; lia. Qed.
  Lemma size_flat_nonempty : forall b : list (list (ptr Obs A)), size (flat_map nonempty b) = size b.
  Proof.
    induction b as [|e b IH]; [reflexivity|]. cbn [flat_map]. rewrite size_app, IH, size_nonempty. reflexivity.
  Qed.
  Lemma size_cons : forall e (d : list (list (ptr Obs A))), size (e :: d) = length e + size d.
  Proof. reflexivity. Qed.

  Definition pending (s : ppo Obs A) : nat :=
    size (memory s) + length (last_episode s) + match batch_last_episode s with None => 0 | Some b => size b end.

  Lemma ready_spec : forall s : ppo Obs A,
    update_if_ready u s =
      if Nat.leb u (pending s)
      then Ok ([memory (flush s)], mk_ppo [] [] (last s) (batch_last_episode (flush s)) (batch_last s))
      else Ok ([], s).
  Proof.
    intros s. unfold update_if_ready. fold (pending s). destruct (Nat.leb_spec u (pending s)) as [L|L]; [|reflexivity].
    assert (E : length (concat (memory (flush s))) = pending s).
    { rewrite size_concat. unfold pending, flush. cbn [memory]. rewrite !size_app, size_nonempty.
      destruct (batch_last_episode s); [rewrite size_flat_nonempty|]; cbn; lia. }
    rewrite E, Nat.eqb_refl. destruct (concat (memory (flush s))) as [|x l]; [cbn in E; lia|]. reflexivity.
  Qed.

  (** Single mode. *)
  Notation all_inner := (fun l : list step => forall x, In x l -> st_end x = None).

  Lemma within_snoc : forall l (x : step), all_inner l -> within_episode (l ++ [x]).
  Proof.
    intros l x H. split; [destruct l; discriminate|]. intros i y Hy Hi. rewrite app_length in Hi. cbn in Hi.
    rewrite nth_error_app1 in Hy by lia. apply H. eapply nth_error_In, Hy.
  Qed.

  Lemma nonempty_map : forall (l : list step), l <> [] -> nonempty (map tr l) = [map tr l].
  Proof. intros [|x l] H; [congruence|reflexivity]. Qed.

  Lemma single_runs : forall (os : list (nstep_op Obs A)) (s : ppo Obs A) rest,
    batch_last_episode s = None -> last_episode s = map tr rest -> all_inner rest -> pending s < u ->
    (last s = None -> rest = []) ->
    stops_follow_actions (match last s with Some _ => true | None => false end) os = true ->
    exists log s' segs rest', run s (map single_call os) = Ok (log, s') /\
      rest ++ steps_from (last s) os = concat segs ++ rest' /\
      concat log ++ memory s' = memory s ++ map (map tr) segs /\ last_episode s' = map tr rest' /\
      Forall within_episode segs /\ all_inner rest' /\ Forall (fun d => length (concat d) = u) log /\ pending s' < u.
  Proof.
    induction os as [|o os IH]; intros s rest Hb Hl Hi Hp Hn Hs.
    - exists [], s, [], rest. cbn. rewrite !app_nil_r. repeat split; auto.
    - destruct o as [obs r a|obs r d]; cbn [map single_call ppo_run ppo_step stops_follow_actions steps_from] in *.
      + unfold ppo_act. destruct (last s) as [[st ac]|] eqn:El.
        * set (x := mk_step (st, ac) r obs None : step).
          set (s1 := mk_ppo (memory s) (last_episode s ++ [mk_ptr st ac r obs true]) (Some (st, ac)) (batch_last_episode s) (batch_last s)).
          assert (El1 : last_episode s1 = map tr (rest ++ [x])) by (unfold s1; cbn [last_episode]; rewrite Hl, map_app; reflexivity).
          assert (P1 : pending s1 = pending s + 1) by (unfold pending, s1; cbn [memory last_episode batch_last_episode]; rewrite app_length; cbn [length]; lia).
          rewrite ready_spec. destruct (Nat.leb_spec u (pending s1)) as [L|L]; cbn [bind fst snd].
          -- destruct (IH (mk_ppo [] [] (Some (obs, a)) (batch_last_episode (flush s1)) (batch_last s1)) []) as (log & s' & segs & rest' & R & E & M & Le & W & I & F & P).
             ++ unfold flush, s1. cbn [batch_last_episode]. rewrite Hb. reflexivity.
             ++ reflexivity.
             ++ intros y [].
             ++ unfold pending, flush, s1. cbn [memory last_episode batch_last_episode]. rewrite Hb. cbn. lia.
             ++ discriminate.
             ++ exact Hs.
             ++ cbn [memory last_episode last batch_last_episode batch_last] in *. rewrite R. cbn [bind fst snd].
                eexists _, s', ((rest ++ [x]) :: segs), rest'. split; [reflexivity|].
                split. { cbn [concat app] in *. rewrite <- !app_assoc. cbn [app]. rewrite E. reflexivity. }
                split. { cbn [concat app map] in *. rewrite <- app_assoc, M. unfold flush. cbn [memory]. rewrite El1.
                  rewrite nonempty_map by (destruct rest; discriminate). change (batch_last_episode s1) with (batch_last_episode s). rewrite Hb, app_nil_r, <- app_assoc. reflexivity. }
                split; [exact Le|]. split; [constructor; [apply within_snoc, Hi|exact W]|]. split; [exact I|]. split; [|exact P].
                constructor; [|exact F]. rewrite size_concat. unfold flush. cbn [memory]. rewrite !size_app, size_nonempty.
                change (batch_last_episode s1) with (batch_last_episode s). rewrite Hb.
                unfold pending in P1, L, Hp. rewrite Hb in *. change (batch_last_episode s1) with (batch_last_episode s) in *. rewrite Hb in *. cbn [size map list_sum fold_right]. lia.
          -- destruct (IH (mk_ppo (memory s1) (last_episode s1) (Some (obs, a)) (batch_last_episode s1) (batch_last s1)) (rest ++ [x])) as (log & s' & segs & rest' & R & E & M & Le & W & I & F & P).
             ++ exact Hb.
             ++ exact El1.
             ++ intros y Hy. apply in_app_iff in Hy. destruct Hy as [Hy|[<-|[]]]; [apply Hi, Hy|reflexivity].
             ++ exact L.
             ++ discriminate.
             ++ exact Hs.
             ++ cbn [memory last_episode last batch_last_episode batch_last] in *. rewrite R. cbn [bind fst snd app].
                exists log, s', segs, rest'. split; [reflexivity|]. split; [rewrite <- E, <- app_assoc; reflexivity|]. auto 10.
        * rewrite (Hn eq_refl) in *. rewrite ready_spec. destruct (Nat.leb_spec u (pending s)) as [L|L]; [lia|]. cbn [bind fst snd].
          destruct (IH (mk_ppo (memory s) (last_episode s) (Some (obs, a)) (batch_last_episode s) (batch_last s)) []) as (log & s' & segs & rest' & R & E & M & Le & W & I & F & P).
          -- exact Hb.
          -- exact Hl.
          -- exact Hi.
          -- exact Hp.
          -- discriminate.
          -- exact Hs.
          -- cbn [memory last_episode last batch_last_episode batch_last] in *. rewrite R. cbn [bind fst snd app]. exists log, s', segs, rest'. split; [reflexivity|]. split; [exact E|]. auto 10.
      + unfold ppo_stop. destruct (last s) as [[st ac]|] eqn:El; [|discriminate]. cbn [andb] in Hs.
        set (x := mk_step (st, ac) r obs (Some d) : step).
        set (s1 := mk_ppo (memory s) (last_episode s ++ [mk_ptr st ac r obs (negb d)]) None (batch_last_episode s) (batch_last s)).
        assert (El1 : last_episode s1 = map tr (rest ++ [x])).
        { unfold s1; cbn [last_episode]; rewrite Hl, map_app. cbn [map]. unfold transition_of, x. cbn [st_key st_reward st_next st_end fst snd]. destruct d; reflexivity. }
        assert (M1 : memory (flush s1) = memory s ++ [map tr (rest ++ [x])]).
        { unfold flush. cbn [memory]. rewrite El1, nonempty_map by (destruct rest; discriminate).
          change (batch_last_episode s1) with (batch_last_episode s). rewrite Hb, app_nil_r. reflexivity. }
        assert (P1 : pending (flush s1) = pending s + 1).
        { unfold pending. rewrite M1, size_app. cbn [flush last_episode batch_last_episode]. change (batch_last_episode s1) with (batch_last_episode s). rewrite Hb, Hl, size_cons.
          rewrite !map_length, app_length. cbn. lia. }
        rewrite ready_spec. destruct (Nat.leb_spec u (pending (flush s1))) as [L|L]; cbn [bind fst snd].
        * destruct (IH (mk_ppo [] [] (last (flush s1)) (batch_last_episode (flush (flush s1))) (batch_last (flush s1))) []) as (log & s' & segs & rest' & R & E & M & Le & W & I & F & P).
          -- unfold flush, s1. cbn [batch_last_episode]. rewrite Hb. reflexivity.
          -- reflexivity.
          -- intros y [].
          -- unfold pending, flush, s1. cbn [memory last_episode batch_last_episode]. rewrite Hb. cbn. lia.
          -- reflexivity.
          -- exact Hs.
          -- cbn [memory last_episode last batch_last_episode batch_last] in *. rewrite R. cbn [bind fst snd].
             assert (MF : memory (flush (flush s1)) = memory s ++ [map tr (rest ++ [x])]).
             { rewrite <- M1. unfold flush at 1. cbn [memory]. change (last_episode (flush s1)) with (@nil (ptr Obs A)). 
               replace (batch_last_episode (flush s1)) with (@None (list (list (ptr Obs A)))) by (unfold flush, s1; cbn; rewrite Hb; reflexivity). cbn. apply app_nil_r. }
             eexists _, s', ((rest ++ [x]) :: segs), rest'. split; [reflexivity|].
             split. { cbn [concat app] in *. rewrite <- !app_assoc. cbn [app]. rewrite <- E. reflexivity. }
             split. { cbn [app map] in *. rewrite concat_cons || cbn [concat]. rewrite <- app_assoc, M. fold s1. rewrite MF, <- app_assoc. reflexivity. }
             split; [exact Le|]. split; [constructor; [apply within_snoc, Hi|exact W]|]. split; [exact I|]. split; [|exact P].
             constructor; [|exact F]. fold s1. rewrite MF, <- M1, size_concat. unfold pending in P1, L, Hp. cbn [flush last_episode batch_last_episode] in P1, L.
             change (batch_last_episode s1) with (batch_last_episode s) in P1, L. rewrite Hb in *. cbn [length] in *. fold (flush s1) in *. lia.
        * destruct (IH (flush s1) []) as (log & s' & segs & rest' & R & E & M & Le & W & I & F & P).
          -- unfold flush, s1. cbn [batch_last_episode]. rewrite Hb. reflexivity.
          -- reflexivity.
          -- intros y [].
          -- exact L.
          -- reflexivity.
          -- exact Hs.
          -- rewrite R. cbn [bind fst snd app]. exists log, s', ((rest ++ [x]) :: segs), rest'. split; [reflexivity|].
             split. { cbn [concat app flush s1 last] in *. rewrite <- !app_assoc. cbn [app]. rewrite <- E. reflexivity. }
             split. { rewrite M, M1, <- app_assoc. reflexivity. }
             split; [exact Le|]. split; [constructor; [apply within_snoc, Hi|exact W]|]. auto.
  Qed.

  Theorem single_datasets : forall os : list (nstep_op Obs A), stops_follow_actions false os = true ->
    exists log s segs rest, run ppo_init (map single_call os) = Ok (log, s) /\
      steps_of os = concat segs ++ rest /\
      concat log ++ memory s = map (map tr) segs /\ last_episode s = map tr rest /\
      (forall seg, In seg segs -> within_episode seg) /\
      (forall d, In d log -> length (concat d) = u) /\ length (concat (memory s)) + length rest < u.
  Proof.
    intros os H. destruct (@single_runs os ppo_init [] eq_refl eq_refl ltac:(intros x []) ltac:(cbn; lia) (fun _ => eq_refl) H)
      as (log & s & segs & rest & R & E & M & L & W & I & F & P).
    exists log, s, segs, rest. rewrite Forall_forall in W, F. split; [exact R|]. split; [exact E|]. split; [exact M|]. split; [exact L|].
    split; [exact W|]. split; [exact F|]. rewrite size_concat. unfold pending in P. rewrite L, map_length in P.
    destruct (batch_last_episode s); lia.
  Qed.

  (** Batch mode. *)
  Notation env_row := (@env_row Obs A).
  Definition ends (x : env_row) : bool := let '(_, (_, _, done, reset)) := x in done || reset.

  Lemma ends_step : forall x : env_row, st_end (step_of_row x) = None <-> ends x = false.
  Proof. intros [key [[[next r] done] reset]]. cbn. destruct done, reset; cbn; split; congruence. Qed.
  Lemma tr_row : forall o a next r done reset, tr (step_of_row ((o, a), (next, r, done, reset))) = mk_ptr o a r next (negb done).
  Proof. intros. unfold transition_of. cbn. destruct done, reset; reflexivity. Qed.

  Definition end1 (r : list env_row) (pend : nat -> list step) (j : nat) : list step :=
    match nth_error r j with Some x => if ends x then [] else pend j ++ [step_of_row x] | None => pend j end.
  Definition adds (r : list env_row) (pend : nat -> list step) (j : nat) : list (list step) :=
    match nth_error r j with Some x => if ends x then [pend j ++ [step_of_row x]] else [] | None => [] end.
  Notation P f := (fun j => map tr (f j)).

  Lemma upd_mid : forall X (a : list X) x b y, upd (a ++ x :: b) (length a) y = a ++ y :: b.
  Proof. induction a as [|z a IH]; intros x b y; [reflexivity|]. cbn [app length upd]. rewrite IH. reflexivity. Qed.

  Lemma observe_spec : forall (r : list env_row) pend xs dn mem, r = dn ++ xs ->
    observe_rows mem (map (P (end1 r pend)) (seq 0 (length dn)) ++ map (P pend) (seq (length dn) (length xs)))
                 (length dn) (combine (map Some (map fst xs)) (map snd xs))
    = Ok (mem ++ map (map tr) (flat_map (adds r pend) (seq (length dn) (length xs))), map (P (end1 r pend)) (seq 0 (length r))).
  Proof.
    intros r pend xs. induction xs as [|x xs IH]; intros dn mem E.
    - cbn. rewrite !app_nil_r in *. rewrite E. reflexivity.
    - destruct x as [[o a] [[[next rew] done] reset]]. set (x := ((o, a), (next, rew, done, reset)) : env_row) in *.
      assert (Nx : nth_error r (length dn) = Some x) by (rewrite E, nth_error_app2, Nat.sub_diag by lia; reflexivity).
      cbn [map fst snd x combine observe_rows observe_row length seq].
      set (e0 := map (P (end1 r pend)) (seq 0 (length dn))). set (e2 := map (P pend) (seq (S (length dn)) (length xs))).
      assert (L0 : length e0 = length dn) by (unfold e0; rewrite map_length, seq_length; reflexivity).
      assert (G : forall y, py_get (e0 ++ y :: e2) (Z.of_nat (length dn)) = Ok y).
      { intros y. apply py_get_nat. rewrite nth_error_app2 by lia. rewrite L0, Nat.sub_diag. reflexivity. }
      assert (U : forall y z, py_set (e0 ++ y :: e2) (Z.of_nat (length dn)) z = Ok (e0 ++ z :: e2)).
      { intros y z. rewrite py_set_nat by (rewrite app_length; cbn; lia). rewrite <- L0, upd_mid. reflexivity. }
      rewrite G. cbn [bind]. rewrite U. cbn [bind].
      assert (E' : r = (dn ++ [x]) ++ xs) by (rewrite <- app_assoc; exact E).
      assert (IH' := fun m => IH (dn ++ [x]) m E'). clear IH. rename IH' into IH. rewrite app_length in IH. cbn [length] in IH.
      replace (length dn + 1) with (S (length dn)) in IH by lia. rewrite seq_S, map_app, <- app_assoc in IH. cbn [map app Nat.add] in IH. fold e0 e2 in IH.
      assert (Tr : map tr (pend (length dn)) ++ [mk_ptr o a rew next (negb done)] = map tr (pend (length dn) ++ [step_of_row x])).
      { rewrite map_app. cbn [map]. unfold x. rewrite tr_row. reflexivity. }
      destruct (done || reset) eqn:D.
      + rewrite G. cbn [bind]. rewrite app_length. cbn [length]. replace (Nat.eqb (length (map tr (pend (length dn))) + 1) 0) with false by (symmetry; apply Nat.eqb_neq; lia).
        cbn [negb]. rewrite U. cbn [bind fst snd].
        assert (E1 : end1 r pend (length dn) = []) by (unfold end1; rewrite Nx; unfold ends, x; rewrite D; reflexivity).
        assert (E2 : adds r pend (length dn) = [pend (length dn) ++ [step_of_row x]]) by (unfold adds; rewrite Nx; unfold ends, x; rewrite D; reflexivity).
        rewrite E1 in IH. cbn [map] in IH. rewrite IH. cbn [flat_map]. rewrite E2. cbn [app map]. rewrite Tr, <- app_assoc. reflexivity.
      + cbn [fst snd bind].
        assert (E1 : end1 r pend (length dn) = pend (length dn) ++ [step_of_row x]) by (unfold end1; rewrite Nx; unfold ends, x; rewrite D; reflexivity).
        assert (E2 : adds r pend (length dn) = []) by (unfold adds; rewrite Nx; unfold ends, x; rewrite D; reflexivity).
        rewrite E1, <- Tr in IH. rewrite IH. cbn [flat_map]. rewrite E2. reflexivity.
  Qed.

  Lemma perm_flat_map : forall X Y (f g : X -> list Y) l, Permutation (flat_map (fun i => f i ++ g i) l) (flat_map f l ++ flat_map g l).
  Proof.
    intros X Y f g l. induction l as [|x l IH]; [constructor|]. cbn [flat_map].
    rewrite <- !app_assoc. apply Permutation_app_head. rewrite IH. rewrite !app_assoc. apply Permutation_app_tail, Permutation_app_comm.
  Qed.

  Variable n : nat.

  Definition bstate (s : ppo Obs A) (pend : nat -> list step) : Prop :=
    (batch_last_episode s = None /\ forall i, pend i = []) \/
    (batch_last_episode s = Some (map (P pend) (seq 0 n)) /\ length (batch_last s) = n).

  Lemma size_map_P : forall (f : nat -> list step) l, size (map (P f) l) = list_sum (map (fun j => length (f j)) l).
  Proof. intros f l. unfold size. rewrite map_map. f_equal. apply map_ext. intros. apply map_length. Qed.
  Lemma size_map_tr : forall l : list (list step), size (map (map tr) l) = list_sum (map (@length step) l).
  Proof. intros l. unfold size. rewrite map_map. f_equal. apply map_ext. intros. apply map_length. Qed.

  Lemma round_size : forall (r : list env_row) pend, length r = n ->
    size (map (map tr) (flat_map (adds r pend) (seq 0 n))) + size (map (P (end1 r pend)) (seq 0 n)) = size (map (P pend) (seq 0 n)) + n.
  Proof.
    intros r pend Hr. rewrite !size_map_P, size_map_tr.
    assert (G : forall l, (forall j, In j l -> j < n) -> list_sum (map (@length step) (flat_map (adds r pend) l)) + list_sum (map (fun j => length (end1 r pend j)) l)
      = list_sum (map (fun j => length (pend j)) l) + length l).
    { induction l as [|j l IH]; intros Hl; [reflexivity|]. cbn [flat_map map length]. rewrite map_app, list_sum_app.
      change (list_sum (?a :: ?b)) with (a + list_sum b).
      assert (J : j < n) by (apply Hl; left; reflexivity). specialize (IH (fun k H => Hl k (or_intror H))).
      assert (Q : list_sum (map (@length step) (adds r pend j)) + length (end1 r pend j) = length (pend j) + 1).
      { unfold adds, end1. destruct (nth_error r j) as [x|] eqn:E; [|apply nth_error_None in E; lia].
        destruct (ends x); cbn [map list_sum fold_right length]; rewrite app_length; cbn; lia. }
      change (list_sum (length (end1 r pend j) :: map (fun j => length (end1 r pend j)) l)) with (length (end1 r pend j) + list_sum (map (fun j => length (end1 r pend j)) l)).
      change (list_sum (length (pend j) :: map (fun j => length (pend j)) l)) with (length (pend j) + list_sum (map (fun j => length (pend j)) l)).
      lia. }
    rewrite G by (intros j Hj; apply in_seq in Hj; lia). rewrite seq_length. reflexivity.
  Qed.

  Lemma combine_fst_snd : forall (r : list env_row), combine (map (fun x => fst (fst x)) r) (map (fun x => snd (fst x)) r) = map fst r.
  Proof. induction r as [|[[o a] w] r IH]; [reflexivity|]. cbn. rewrite IH. reflexivity. Qed.

  Lemma round_spec : forall (r : list env_row) s pend, bstate s pend -> last_episode s = [] -> length r = n -> pending s < u ->
    (forall i, all_inner (pend i)) ->
    exists s1, ppo_batch_act s (map (fun x => fst (fst x)) r) (map (fun x => snd (fst x)) r) = Ok s1 /\
      exists log s2 pend2 adds2, ppo_batch_observe u s1 (map snd r) = Ok (log, s2) /\ bstate s2 pend2 /\ last_episode s2 = [] /\ pending s2 < u /\
        (forall i, all_inner (pend2 i)) /\
        (forall i, i < n -> pend i ++ column i [r] = concat (adds2 i) ++ pend2 i) /\
        (forall i e, In e (adds2 i) -> within_episode e) /\
        Permutation (concat log ++ memory s2) (memory s ++ map (map tr) (flat_map adds2 (seq 0 n))) /\
        (forall d, In d log -> u <= length (concat d) <= u + n - 1).
  Proof.
    intros r s pend B Le Hr Hp Hi.
    assert (Hr' : @length (Obs * A * brow (Obs := Obs)) r = n) by exact Hr.
    assert (B1 : exists eps1 bl, batch_last_episode s = eps1 /\
      ppo_batch_act s (map (fun x => fst (fst x)) r) (map (fun x => snd (fst x)) r) =
      Ok (mk_ppo (memory s) (last_episode s) (last s) (Some (map (P pend) (seq 0 n))) bl) /\ bl = map Some (map fst r) /\
      size (map (P pend) (seq 0 n)) = match eps1 with None => 0 | Some b => size b end).
    { unfold ppo_batch_act. rewrite combine_fst_snd.
      rewrite !map_length.
      rewrite Hr'. destruct B as [[B0 B1]|[B0 B1]].
      - rewrite B0. cbn [batch_last_episode batch_last]. rewrite !repeat_length, Nat.eqb_refl. exists None. eexists. split; [reflexivity|].
        assert (R : repeat [] n = map (P pend) (seq 0 n)).
        { clear -B1. generalize 0. induction n as [|m IH]; intros q; [reflexivity|]. cbn [repeat seq map]. rewrite B1, (IH (S q)). reflexivity. }
        rewrite R. split; [reflexivity|]. split; [reflexivity|]. rewrite <- R. clear. induction n as [|m IH]; [reflexivity|]. cbn. exact IH.
      - rewrite B0. cbn [batch_last_episode batch_last]. rewrite B0, map_length, seq_length, B1, Nat.eqb_refl.
        eexists. eexists. split; [reflexivity|]. split; [reflexivity|]. split; reflexivity. }
    destruct B1 as (eps1 & bl & Eb & Eact & Ebl & Sz). rewrite Eact. eexists. split; [reflexivity|].
    unfold ppo_batch_observe. cbn [batch_last_episode memory batch_last last_episode last].
    pose proof (@observe_spec r pend r [] (memory s) eq_refl) as O. cbn [length map seq app] in O. rewrite Hr in O. rewrite Ebl, O. cbn [bind fst snd].
    assert (Lk : length (combine (map Some (map fst r)) (map snd r)) = n) by (rewrite combine_length, !map_length; lia).
    rewrite Lk, ready_spec.
    set (s2 := mk_ppo _ _ _ _ _).
    assert (Pn : pending s2 = pending s + n).
    { unfold pending, s2. cbn [memory last_episode batch_last_episode]. rewrite size_app. pose proof (round_size r pend Hr) as RS. rewrite Eb. rewrite <- Sz. rewrite Le. cbn [length]. lia. }
    assert (C1 : forall i, i < n -> pend i ++ column i [r] = concat (adds r pend i) ++ end1 r pend i).
    { intros i Hin. unfold column, adds, end1. cbn [flat_map]. rewrite app_nil_r. destruct (nth_error r i) as [x|] eqn:E; [|apply nth_error_None in E; lia].
      destruct (ends x); cbn [concat app]; rewrite ?app_nil_r; reflexivity. }
    assert (W1 : forall i e, In e (adds r pend i) -> within_episode e).
    { intros i e H. unfold adds in H. destruct (nth_error r i) as [x|]; [|destruct H]. destruct (ends x); [|destruct H]. destruct H as [<-|[]]. apply within_snoc, Hi. }
    assert (I1 : forall i, all_inner (end1 r pend i)).
    { intros i x H. unfold end1 in H. destruct (nth_error r i) as [y|]; [|exact (Hi i x H)]. destruct (ends y) eqn:Ey; [destruct H|].
      apply in_app_iff in H. destruct H as [H|[<-|[]]]; [exact (Hi i x H)|]. apply ends_step, Ey. }
    destruct (Nat.leb_spec u (pending s2)) as [L|L].
    - set (adds2 := fun i => match end1 r pend i with [] => [] | e => [e] end).
      exists [memory (flush s2)], (mk_ppo [] [] (last s2) (batch_last_episode (flush s2)) (batch_last s2)), (fun _ => []), (fun i => adds r pend i ++ adds2 i).
      split; [reflexivity|].
      assert (Fl : flat_map nonempty (map (P (end1 r pend)) (seq 0 n)) = map (map tr) (flat_map adds2 (seq 0 n))).
      { clear. generalize (seq 0 n). induction l as [|j l IH]; [reflexivity|]. cbn [map flat_map]. rewrite map_app, <- IH. f_equal.
        unfold adds2. destruct (end1 r pend j); reflexivity. }
      assert (MF : memory (flush s2) = memory s ++ map (map tr) (flat_map (adds r pend) (seq 0 n)) ++ map (map tr) (flat_map adds2 (seq 0 n))).
      { unfold flush, s2. cbn [memory last_episode batch_last_episode]. rewrite Le, Fl. cbn [nonempty app]. rewrite <- app_assoc. reflexivity. }
      split. { right. unfold flush, s2. cbn [batch_last_episode batch_last]. rewrite map_map. split; [reflexivity|].
        rewrite app_length, repeat_length, skipn_length, !map_length. lia. }
      split; [reflexivity|].
      split. { unfold pending, flush, s2. cbn [memory last_episode batch_last_episode]. rewrite map_map.
        replace (size (map (fun _ : nat => []) (seq 0 n))) with 0; [cbn; lia|]. clear. generalize (seq 0 n). induction l; [reflexivity|]. cbn. exact IHl. }
      split; [intros i x []|].
      split. { intros i Hin. rewrite (C1 i Hin), concat_app, app_nil_r. f_equal. unfold adds2. destruct (end1 r pend i); [reflexivity|]. cbn. rewrite app_nil_r. reflexivity. }
      split. { intros i e H. apply in_app_iff in H. destruct H as [H|H]; [exact (W1 i e H)|]. unfold adds2 in H.
        pose proof (I1 i) as Ii. destruct (end1 r pend i) as [|y l]; [destruct H|]. destruct H as [<-|[]]. split; [discriminate|].
        intros k z Hz _. apply Ii. eapply nth_error_In, Hz. }
      split. { cbn [concat memory]. rewrite !app_nil_r, MF. apply Permutation_app_head. rewrite <- map_app. apply Permutation_map. symmetry. apply perm_flat_map. }
      intros d [<-|[]]. rewrite size_concat. replace (size (memory (flush s2))) with (pending s2); [lia|].
      unfold pending, flush. cbn [memory]. rewrite !size_app, size_nonempty. destruct (batch_last_episode s2); [rewrite size_flat_nonempty|]; cbn; lia.
    - exists [], s2, (end1 r pend), (adds r pend). split; [reflexivity|].
      split. { right. unfold s2. cbn [batch_last_episode batch_last]. split; [reflexivity|]. rewrite app_length, repeat_length, skipn_length, !map_length. lia. }
      split; [exact Le|]. split; [exact L|]. split; [exact I1|]. split; [exact C1|]. split; [exact W1|].
      split; [cbn [concat app memory s2]; reflexivity|]. intros d [].
  Qed.

  Lemma batch_runs : forall (rounds : list (list env_row)) s pend, (forall r, In r rounds -> length r = n) ->
    bstate s pend -> last_episode s = [] -> pending s < u -> (forall i, all_inner (pend i)) ->
    exists log s' segs pend', run s (flat_map round_calls rounds) = Ok (log, s') /\
      (forall i, i < n -> pend i ++ column i rounds = concat (segs i) ++ pend' i) /\
      (forall i e, In e (segs i) -> within_episode e) /\
      Permutation (concat log ++ memory s') (memory s ++ map (map tr) (flat_map segs (seq 0 n))) /\
      (forall d, In d log -> u <= length (concat d) <= u + n - 1) /\
      bstate s' pend' /\ last_episode s' = [] /\ pending s' < u.
  Proof.
    induction rounds as [|r rounds IH]; intros s pend Hl B Le Hp Hi.
    - exists [], s, (fun _ => []), pend. cbn [flat_map ppo_run column concat app map]. split; [reflexivity|]. 
      split; [intros; apply app_nil_r|]. split; [intros i e []|].
      split. { replace (flat_map (fun _ => []) (seq 0 n)) with (@nil (list step)) by (clear; generalize (seq 0 n); induction l; [reflexivity|assumption]). cbn. rewrite app_nil_r. reflexivity. }
      split; [intros d []|]. auto.
    - destruct (@round_spec r s pend B Le (Hl r (or_introl eq_refl)) Hp Hi) as (s1 & E1 & log1 & s2 & pend2 & adds2 & E2 & B2 & Le2 & P2 & I2 & C2 & W2 & M2 & D2).
      destruct (IH s2 pend2 (fun r' H => Hl r' (or_intror H)) B2 Le2 P2 I2) as (log & s' & segs & pend' & R & C & W & M & D & B' & Le' & P').
      exists (log1 ++ log), s', (fun i => adds2 i ++ segs i), pend'.
      split. { cbn [flat_map round_calls app ppo_run ppo_step]. rewrite E1. cbn [bind fst snd]. rewrite E2. cbn [bind fst snd]. rewrite R. cbn [bind fst snd app]. reflexivity. }
      split. { intros i Hin. change (r :: rounds) with ([r] ++ rounds). unfold column. rewrite flat_map_app. fold (column i [r]). fold (column i rounds).
        rewrite app_assoc, (C2 i Hin), <- app_assoc, (C i Hin), concat_app, app_assoc. reflexivity. }
      split. { intros i e H. apply in_app_iff in H. destruct H; eauto. }
      split. { rewrite concat_app, <- app_assoc. rewrite M, app_assoc, M2, <- app_assoc. apply Permutation_app_head.
        rewrite <- map_app. apply Permutation_map. symmetry. apply perm_flat_map. }
      split. { intros d H. apply in_app_iff in H. destruct H; eauto. }
      auto.
  Qed.

  Theorem batch_datasets : forall rounds : list (list env_row), (forall r, In r rounds -> length r = n) ->
    exists log s segs rest, run ppo_init (flat_map round_calls rounds) = Ok (log, s) /\
      (forall i, i < n -> column i rounds = concat (segs i) ++ rest i) /\
      (forall i seg, In seg (segs i) -> within_episode seg) /\
      Permutation (concat log ++ memory s) (map (map tr) (flat_map segs (seq 0 n))) /\
      (forall d, In d log -> u <= length (concat d) <= u + n - 1) /\
      length (concat (memory s)) + list_sum (map (fun i => length (rest i)) (seq 0 n)) < u.
  Proof.
    intros rounds Hl. destruct (@batch_runs rounds ppo_init (fun _ => []) Hl) as (log & s & segs & rest & R & C & W & M & D & B & Le & P).
    - left. split; reflexivity.
    - reflexivity.
    - cbn. lia.
    - intros i x [].
    - exists log, s, segs, rest. split; [exact R|]. split; [exact C|]. split; [exact W|]. split; [exact M|]. split; [exact D|].
      rewrite size_concat. unfold pending in P. rewrite Le in P. cbn [length] in P. destruct B as [[B0 B1]|[B0 B1]]; rewrite B0 in P.
      + replace (list_sum (map (fun i => length (rest i)) (seq 0 n))) with 0; [lia|]. clear -B1. generalize (seq 0 n). induction l; [reflexivity|]. cbn [map]. rewrite B1. exact IHl.
      + rewrite size_map_P in P. lia.
  Qed.
End Agent.
