(** ReplayBuffer stores exactly the windows of the episodes. *)
From Verif Require Import Base.PyBase Base.ListFacts Model.Random Model.RandomAccessQueue Model.ReplayBuffer
     Spec.BoundedList Spec.RandomSpec Spec.WindowSpec Proofs.RandomAccessQueueProofs Proofs.RandomProofs.
Set Implicit Arguments.

Section G.
  Context {T M : Type}.
  Variable push : M -> list T -> res M.

  (** Pushing a list of windows one after another. *)
  Fixpoint pushes (m : M) (ws : list (list T)) : res M :=
    match ws with [] => Ok m | w :: t => let! m' := push m w in pushes m' t end.

  Lemma pushes_app a : forall m b, pushes m (a ++ b) = let! m' := pushes m a in pushes m' b.
  Proof. induction a as [|w a IH]; intros m b; cbn [app pushes bind]; auto.
         destruct (push m w); cbn [bind]; auto. Qed.

  Fixpoint tails (l : list T) : list (list T) :=
    match l with [] => [] | _ :: t => l :: tails t end.

  Lemma flush_pushes l : forall m, flush push m l = pushes m (tails l).
  Proof. induction l as [|x l IH]; intros m; cbn [flush tails pushes]; auto.
         destruct (push m (x :: l)); cbn [bind]; auto. Qed.

  (** The last [k] transitions. *)
  Definition last_k (k : nat) (l : list T) : list T := skipn (length l - k) l.

  Lemma last_k_append n l x : 0 < n -> deque_append n (last_k n l) x = last_k n (l ++ [x]).
  Proof.
    intros Hn. unfold deque_append, last_k. rewrite !app_length, skipn_length. cbn [length].
    destruct (le_lt_dec (length l) n) as [H|H].
    - replace (length l - n) with 0 by lia. cbn [skipn]. f_equal. lia.
    - replace (length l + 1 - n) with (S (length l - n)) by lia.
      replace (length l - (length l - n) + 1 - n) with 1 by lia.
      replace (S (length l - n)) with (1 + (length l - n)) by lia.
      rewrite <- (skipn_skipn_add (l ++ [x]) 1 (length l - n)). f_equal. rewrite skipn_app. f_equal.
      replace (length l - n - length l) with 0 by lia. reflexivity.
  Qed.
  Lemma last_k_length k l : length (last_k k l) = Nat.min k (length l).
  Proof. unfold last_k. rewrite skipn_length. lia. Qed.

  Lemma window_last n (ep : list T) i : length ep <= i + n -> window n ep i = skipn i ep.
  Proof. intros H. unfold window. apply firstn_all2. rewrite skipn_length. lia. Qed.

  (** Suffixes of an episode as windows. *)
  Lemma tails_windows n (ep : list T) : forall k, length ep <= k + n ->
    tails (skipn k ep) = map (window n ep) (seq k (length ep - k)).
  Proof.
    intros k. remember (length ep - k) as d eqn:Ed. revert k Ed. induction d as [|d IH]; intros k Ed Hk.
    - rewrite skipn_all2 by lia. reflexivity.
    - cbn [seq map]. rewrite window_last by lia.
      destruct (skipn k ep) as [|x t] eqn:Es.
      { apply (f_equal (@length T)) in Es. rewrite skipn_length in Es. cbn in Es. lia. }
      cbn [tails]. f_equal. rewrite <- IH by lia. f_equal.
      replace (S k) with (1 + k) by lia. rewrite <- skipn_skipn_add, Es. reflexivity.
  Qed.

  Lemma window_app n (ep : list T) x i : i + n <= length ep -> window n (ep ++ [x]) i = window n ep i.
  Proof.
    intros H. unfold window. rewrite skipn_app, firstn_app, skipn_length.
    replace (n - (length ep - i)) with 0 by lia. cbn [firstn]. now rewrite app_nil_r.
  Qed.

  (** Windows of the episode extended by one transition. *)
  Lemma open_snoc n (ep : list T) x : 0 < n ->
    open_windows n (ep ++ [x]) = open_windows n ep ++ (if n <=? length ep + 1 then [last_k n (ep ++ [x])] else []).
  Proof.
    intros Hn. unfold open_windows. rewrite app_length. cbn [length].
    destruct (n <=? length ep + 1) eqn:E.
    - replace (length ep + 1 + 1 - n) with (S (length ep + 1 - n)) by lia.
      rewrite seq_S, map_app. f_equal.
      + apply map_ext_in. intros i Hi. apply in_seq in Hi. apply window_app. lia.
      + cbn [map plus]. rewrite window_last by (rewrite app_length; cbn [length]; lia).
        unfold last_k. rewrite app_length. cbn [length]. reflexivity.
    - replace (length ep + 1 + 1 - n) with 0 by lia. replace (length ep + 1 - n) with 0 by lia. reflexivity.
  Qed.

  Lemma windows_split n (ep : list T) k : k <= length ep ->
    windows n ep = map (window n ep) (seq 0 k) ++ map (window n ep) (seq k (length ep - k)).
  Proof. intros H. unfold windows. rewrite <- map_app. f_equal.
         replace (length ep) with (k + (length ep - k)) at 1 by lia. apply seq_app. Qed.

  (** A terminal transition contributes the rest of the windows. *)
  Lemma windows_snoc n (ep : list T) x : 0 < n ->
    windows n (ep ++ [x]) = open_windows n ep ++ tails (last_k n (ep ++ [x])).
  Proof.
    intros Hn. unfold last_k.
    rewrite (@tails_windows n) by lia.
    rewrite (@windows_split n (ep ++ [x]) (length (ep ++ [x]) - n)) by lia. f_equal.
    unfold open_windows. rewrite app_length. cbn [length].
    apply map_ext_in. intros i Hi. apply in_seq in Hi. apply window_app. lia.
  Qed.

  (** Stopping contributes the incomplete windows. *)
  Lemma windows_stop n (ep : list T) : 0 < n ->
    windows n ep = open_windows n ep ++ tails (last_k (n - 1) ep).
  Proof.
    intros Hn. unfold last_k. destruct (le_lt_dec n (length ep)) as [H|H].
    - replace (length ep - (n - 1)) with (length ep + 1 - n) by lia.
      rewrite (@tails_windows n ep (length ep + 1 - n)) by lia. rewrite (@windows_split n ep (length ep + 1 - n)) by lia. reflexivity.
    - replace (length ep - (n - 1)) with 0 by lia. rewrite (@tails_windows n ep 0) by lia.
      unfold open_windows. replace (length ep + 1 - n) with 0 by lia. rewrite Nat.sub_0_r. reflexivity.
  Qed.

  Lemma stop_pushes (b : nrb T M) e cur : 0 < nr_n b -> nr_last b e = last_k (nr_n b) cur ->
    nrb_stop push b e = let! m := pushes (nr_mem b) (tails (last_k (nr_n b - 1) cur)) in
                        Ok (mk_nrb (nr_n b) m (set_last (nr_last b) e [])).
  Proof.
    intros Hn Hl. unfold nrb_stop. rewrite Hl. rewrite last_k_length.
    set (n := nr_n b) in *.
    destruct (0 <? Nat.min n (length cur)) eqn:E0; cbn [andb].
    2:{ assert (cur = []) as -> by (destruct cur; auto; cbn [length] in E0; lia). reflexivity. }
    replace (Nat.min n (length cur) <=? n) with true by lia.
    destruct (Nat.min n (length cur) <? n) eqn:E1.
    - assert (Hlc : last_k n cur = cur). { unfold last_k. replace (length cur - n) with 0 by lia. reflexivity. }
      assert (Hlc' : last_k (n - 1) cur = cur). { unfold last_k. replace (length cur - (n - 1)) with 0 by lia. reflexivity. }
      rewrite Hlc, Hlc'. destruct cur as [|x t]; [cbn [length] in E0; lia|]. cbn [tl tails pushes].
      destruct (push (nr_mem b) (x :: t)) as [m|]; cbn [bind]; auto. rewrite flush_pushes. reflexivity.
    - cbn [bind]. rewrite flush_pushes.
      replace (tl (last_k n cur)) with (last_k (n - 1) cur); auto.
      unfold last_k. replace (length cur - (n - 1)) with (1 + (length cur - n)) by lia.
      rewrite <- skipn_skipn_add. destruct (skipn (length cur - n) cur); reflexivity.
  Qed.

  Lemma append_pushes (b : nrb T M) e cur x terminal : 0 < nr_n b -> nr_last b e = last_k (nr_n b) cur ->
    let n := nr_n b in
    nrb_append push b e x terminal =
      let! m := pushes (nr_mem b) (if terminal then tails (last_k n (cur ++ [x]))
                                   else if n <=? length cur + 1 then [last_k n (cur ++ [x])] else []) in
      Ok (mk_nrb n m (set_last (nr_last b) e (if terminal then [] else last_k n (cur ++ [x])))).
  Proof.
    intros Hn Hl n. unfold nrb_append. rewrite Hl. fold n. rewrite last_k_append by auto.
    destruct terminal; [now rewrite flush_pushes|].
    rewrite last_k_length, app_length. cbn [length].
    destruct (n <=? length cur + 1) eqn:E.
    - replace (Nat.min n (length cur + 1) =? n) with true by lia. cbn [pushes].
      destruct (push (nr_mem b) (last_k n (cur ++ [x]))); reflexivity.
    - replace (Nat.min n (length cur + 1) =? n) with false by lia. reflexivity.
  Qed.

  (** What one operation emits when the open episode of its env is [cur]. *)
  Definition emit (n : nat) (cur : list T) (o : rb_op T) : list (list T) :=
    match o with
    | RAppend _ x true => tails (last_k n (cur ++ [x]))
    | RAppend _ x false => if n <=? length cur + 1 then [last_k n (cur ++ [x])] else []
    | RStop _ => tails (last_k (n - 1) cur)
    end.
  Definition op_env (o : rb_op T) : nat := match o with RAppend e _ _ => e | RStop e => e end.
  Definition next_cur (cur : list T) (o : rb_op T) : list T :=
    match o with RAppend _ x false => cur ++ [x] | _ => [] end.

  (** The log of a whole history. *)
  Fixpoint log_of (n : nat) (curs : nat -> list T) (os : list (rb_op T)) : list (nat * list T) :=
    match os with
    | [] => []
    | o :: t => let e := op_env o in
                map (pair e) (emit n (curs e) o) ++ log_of n (set_last curs e (next_cur (curs e) o)) t
    end.

  Lemma map_snd_pair (e : nat) (ws : list (list T)) : map snd (map (pair e) ws) = ws.
  Proof. rewrite map_map. cbn. apply map_id. Qed.

  Lemma step_pushes (b : nrb T M) o curs : 0 < nr_n b -> (forall e, nr_last b e = last_k (nr_n b) (curs e)) ->
    exists last', nrb_step push b o =
      (let! m := pushes (nr_mem b) (emit (nr_n b) (curs (op_env o)) o) in Ok (mk_nrb (nr_n b) m last')) /\
      forall e, last' e = last_k (nr_n b) (set_last curs (op_env o) (next_cur (curs (op_env o)) o) e).
  Proof.
    intros Hn Hl. destruct o as [e x terminal|e]; cbn [nrb_step op_env].
    - rewrite (append_pushes b e (curs e) x terminal Hn (Hl e)). destruct terminal; (eexists; split; [reflexivity|]);
      intros e'; unfold set_last; destruct (e' =? e) eqn:E; auto.
    - rewrite (stop_pushes b e (curs e) Hn (Hl e)). eexists. split; [reflexivity|].
      intros e'. unfold set_last. destruct (e' =? e); auto.
  Qed.

  Lemma run_pushes os : forall (b : nrb T M) curs, 0 < nr_n b -> (forall e, nr_last b e = last_k (nr_n b) (curs e)) ->
    match nrb_run push b os with
    | Ok b' => pushes (nr_mem b) (map snd (log_of (nr_n b) curs os)) = Ok (nr_mem b')
    | Raise x => pushes (nr_mem b) (map snd (log_of (nr_n b) curs os)) = Raise x
    end.
  Proof.
    induction os as [|o os IH]; intros b curs Hn Hl; cbn [nrb_run log_of]; auto.
    destruct (step_pushes b o curs Hn Hl) as (last' & -> & Hl').
    rewrite map_app, map_snd_pair, pushes_app.
    destruct (pushes (nr_mem b) (emit (nr_n b) (curs (op_env o)) o)) as [m|x]; cbn [bind]; auto.
    apply (IH (mk_nrb (nr_n b) m last')); auto.
  Qed.

  (** Per-environment content of the log. *)
  Definition contributed_from (n e : nat) (cur : list T) (os : list (rb_op T)) : list (list T) :=
    let (eps, o) := episodes_from e cur os in concat (map (windows n) eps) ++ open_windows n o.

  Lemma filter_pair_same (e : nat) (ws : list (list T)) : filter (fun p => fst p =? e) (map (pair e) ws) = map (pair e) ws.
  Proof. induction ws; cbn; auto. rewrite Nat.eqb_refl. now f_equal. Qed.
  Lemma filter_pair_other (e e' : nat) (ws : list (list T)) : e' <> e -> filter (fun p => fst p =? e) (map (pair e') ws) = [].
  Proof. intros H. induction ws; cbn; auto. apply Nat.eqb_neq in H. now rewrite H. Qed.

  Lemma log_exact n os : 0 < n -> forall curs e,
    open_windows n (curs e) ++ map snd (filter (fun p => fst p =? e) (log_of n curs os)) = contributed_from n e (curs e) os.
  Proof.
    intros Hn. induction os as [|o os IH]; intros curs e; cbn [log_of].
    - unfold contributed_from. cbn [episodes_from map filter concat app]. now rewrite app_nil_r.
    - rewrite filter_app, map_app.
      specialize (IH (set_last curs (op_env o) (next_cur (curs (op_env o)) o)) e).
      
      replace (set_last curs (op_env o) (next_cur (curs (op_env o)) o) e)
        with (if e =? op_env o then next_cur (curs (op_env o)) o else curs e) in IH by reflexivity.
      destruct (Nat.eq_dec (op_env o) e) as [He|He].
      + rewrite He in *. rewrite Nat.eqb_refl in IH. rewrite filter_pair_same, map_snd_pair.
        unfold contributed_from. destruct o as [e' x [|]|e']; cbn [op_env] in He; subst e';
          cbn [episodes_from emit next_cur op_env] in *; rewrite Nat.eqb_refl; cbn [open_windows] in *.
        * unfold contributed_from in IH. destruct (episodes_from e [] os) as [eps o].
          cbn [map concat]. rewrite windows_snoc by auto. rewrite <- !app_assoc. rewrite <- IH. f_equal. f_equal.
          unfold open_windows. cbn [length]. replace (0 + 1 - n) with 0 by lia. reflexivity.
        * rewrite open_snoc in IH by auto. rewrite <- app_assoc in IH. exact IH.
        * unfold contributed_from in IH. destruct (episodes_from e [] os) as [eps o].
          cbn [map concat]. rewrite (@windows_stop n (curs e)) by auto. rewrite <- !app_assoc. rewrite <- IH. f_equal. f_equal.
          unfold open_windows. cbn [length]. replace (0 + 1 - n) with 0 by lia. reflexivity.
      + assert (E : (e =? op_env o) = false) by (apply Nat.eqb_neq; auto). rewrite E in IH.
        rewrite filter_pair_other by auto. cbn [map app]. rewrite IH. unfold contributed_from.
        destruct o as [e' x terminal|e']; cbn [episodes_from op_env] in *;
          replace (e' =? e) with false by (symmetry; apply Nat.eqb_neq; auto); reflexivity.
  Qed.

  Lemma nstep_windows n m os : 0 < n ->
    exists log, exact_log n os log /\
      match nrb_init n m with
      | Ok b => match nrb_run push b os with
                | Ok b' => pushes m (map snd log) = Ok (nr_mem b')
                | Raise x => pushes m (map snd log) = Raise x
                end
      | Raise _ => False
      end.
  Proof.
    intros Hn. exists (log_of n (fun _ => []) os). split.
    - intros e. pose proof (log_exact os Hn (fun _ => []) e) as H. unfold open_windows in H at 1.
      cbn [length] in H. replace (0 + 1 - n) with 0 in H by lia. exact H.
    - unfold nrb_init. replace (0 <? n) with true by lia.
      pose proof (run_pushes os (mk_nrb n m (fun _ => [])) (fun _ => []) Hn) as H. apply H.
      intros e. reflexivity.
  Qed.
End G.

Section RB.
  Context {T : Type}.
  Notation qpush := (@raq_append (list T)).

  Lemma trim_trim_snoc {A} m (l : list A) x : trim m (trim m l ++ [x]) = trim m (l ++ [x]).
  Proof.
    destruct m as [m|]; cbn [trim]; auto. rewrite !app_length, skipn_length. cbn [length].
    destruct (le_lt_dec (length l) m) as [H|H].
    - replace (length l - m) with 0 by lia. cbn [skipn]. f_equal. lia.
    - replace (length l + 1 - m) with ((length l - (length l - m) + 1 - m) + (length l - m)) by lia.
      rewrite <- (skipn_skipn_add (l ++ [x])). f_equal. rewrite skipn_app.
      replace (length l - m - length l) with 0 by lia. reflexivity.
  Qed.

  Lemma raq_pushes ws : forall q l, maxlen q = maxlen q -> raq_iter q = trim (maxlen q) l ->
    exists q', pushes qpush q ws = Ok q' /\ maxlen q' = maxlen q /\ raq_iter q' = trim (maxlen q) (l ++ ws).
  Proof.
    induction ws as [|w ws IH]; intros q l _ Hl; cbn [pushes].
    - exists q. rewrite app_nil_r. auto.
    - destruct (raq_append_spec q w) as (q1 & -> & Hm & Hi).
      { rewrite Hl. destruct (maxlen q); cbn [trim]; auto. rewrite !skipn_length. lia. }
      cbn [bind]. destruct (IH q1 (l ++ [w]) eq_refl) as (q2 & E & Hm2 & Hi2).
      { rewrite Hi, Hm, Hl. apply trim_trim_snoc. }
      exists q2. split; auto. split; [congruence|]. rewrite Hi2, Hm, <- app_assoc. reflexivity.
  Qed.

  Lemma rb_windows (cap : option nat) n (os : list (rb_op T)) : 0 < n ->
    exists b0 b log, rb_init cap n = Ok b0 /\ nrb_run qpush b0 os = Ok b /\
      exact_log n os log /\ raq_iter (nr_mem b) = trim cap (map snd log) /\
      maxlen (nr_mem b) = cap /\
      match cap with Some c => rb_len b <= c | None => True end.
  Proof.
    intros Hn. destruct (raq_init_spec cap (@nil (list T))) as (q0 & H0 & Hm & Hi).
    destruct (nstep_windows qpush q0 os Hn) as (log & Hlog & Hrun).
    destruct (@raq_pushes (map snd log) q0 [] eq_refl) as (q1 & Hp & Hm1 & Hi1). { now rewrite Hi, Hm. }
    unfold rb_init. rewrite H0. cbn [bind]. destruct (nrb_init n q0) as [b0|]; [|destruct Hrun].
    destruct (nrb_run qpush b0 os) as [b|x] eqn:Er; [|congruence].
    exists b0, b, log. split; [auto|]. split; [auto|]. split; [auto|].
    assert (q1 = nr_mem b) as -> by congruence. rewrite Hi1, Hm. cbn [app]. split; [auto|]. split; [congruence|].
    destruct cap as [c|]; auto. unfold rb_len. rewrite raq_len_iter, Hi1, Hm. cbn [app trim]. rewrite skipn_length. lia.
  Qed.

  (** Sampling: [k] entries at pairwise different positions. *)
  Lemma rb_sample_spec fuel r (b : rb T) k : rng_ok (Z.of_nat (rb_len b)) (Z.of_nat k) r ->
    match rb_sample fuel r b k with
    | Ok ws => exists ixs, NoDup ixs /\ length ixs = k /\
        Forall2 (fun i w => nth_error (raq_iter (nr_mem b)) i = Some w) ixs ws
    | Raise AssertionError => rb_len b < k
    | Raise e => e = OutOfFuel
    end.
  Proof.
    intros Hr. unfold rb_sample. destruct (k <=? rb_len b) eqn:E; [|lia].
    pose proof (@sample_n_k_sound fuel r _ _ Hr) as Hs.
    destruct (sample_n_k fuel r (Z.of_nat (rb_len b)) (Z.of_nat k)) as [ixs|e]; cbn [bind].
    - destruct Hs as (_ & Hl & Hnd & Hrg).
      destruct (@raq_gets_spec _ (nr_mem b) ixs) as (ws & -> & HF).
      { intros i Hi. rewrite <- raq_len_iter. apply Hrg. auto. }
      exists (map Z.to_nat ixs). split; [|split].
      + apply (NoDup_map_inv Z.of_nat). rewrite map_map.
        rewrite (map_ext_in _ (fun z => z)); [now rewrite map_id|]. intros z Hz. specialize (Hrg z Hz). lia.
      + rewrite map_length. lia.
      + clear - HF. induction HF; cbn [map]; constructor; auto.
    - destruct e; auto; try discriminate; lia.
  Qed.

  Lemma rb_load_contents (b b' : rb T) : exists b2, rb_load b' (rb_save b) = Ok b2 /\
    raq_iter (nr_mem b2) = raq_iter (nr_mem b) /\ maxlen (nr_mem b2) = maxlen (nr_mem b) /\
    nr_n b2 = nr_n b' /\ nr_last b2 = nr_last b'.
  Proof. eexists. split; [reflexivity|]. auto. Qed.

  Definition rb_inv (cap : option nat) (b : rb T) : Prop :=
    maxlen (nr_mem b) = cap /\ raq_iter (nr_mem b) = trim cap (raq_iter (nr_mem b)).

  Lemma pushes_inv cap q ws : maxlen q = cap -> raq_iter q = trim cap (raq_iter q) ->
    exists q', pushes qpush q ws = Ok q' /\ maxlen q' = cap /\ raq_iter q' = trim cap (raq_iter q').
  Proof.
    intros Hm Hi. destruct (@raq_pushes ws q (raq_iter q) eq_refl) as (q' & E & Hm' & Hi'); [congruence|].
    exists q'. split; [auto|]. split; [congruence|]. rewrite Hi', Hm.
    destruct cap as [c|]; cbn [trim]; auto. rewrite skipn_length.
    match goal with |- _ = skipn ?k _ => replace k with 0 by lia end. reflexivity.
  Qed.

  Lemma nrb_append_pushes (b : rb T) e x t : exists ws last',
    nrb_append qpush b e x t = let! m := pushes qpush (nr_mem b) ws in Ok (mk_nrb (nr_n b) m last').
  Proof.
    unfold nrb_append. destruct t.
    - do 2 eexists. rewrite flush_pushes. reflexivity.
    - destruct (_ =? nr_n b).
      + exists [deque_append (nr_n b) (nr_last b e) x]. eexists. cbn [pushes].
        destruct (raq_append _ _); reflexivity.
      + exists []. eexists. reflexivity.
  Qed.
  Lemma nrb_stop_pushes (b : rb T) e : exists ws last',
    nrb_stop qpush b e = let! m := pushes qpush (nr_mem b) ws in Ok (mk_nrb (nr_n b) m last').
  Proof.
    unfold nrb_stop. set (l := nr_last b e).
    set (ws0 := if (0 <? length l) && (length l <? nr_n b) then [l] else []).
    set (l1 := if (0 <? length l) && (length l <=? nr_n b) then tl l else l).
    exists (ws0 ++ tails l1). eexists. rewrite pushes_app.
    assert (E : (if (0 <? length l) && (length l <? nr_n b) then raq_append (nr_mem b) l else Ok (nr_mem b))
                = pushes qpush (nr_mem b) ws0).
    { unfold ws0. destruct (_ && _); cbn [pushes]; auto. destruct (raq_append _ _); reflexivity. }
    rewrite E. destruct (pushes qpush (nr_mem b) ws0); cbn [bind]; auto. rewrite flush_pushes. reflexivity.
  Qed.

  Lemma rb_capacity_with_loads cap n (os : list (rbl_op T)) : 0 < n ->
    (forall f, In (LLoad f) os -> file_ok cap f) ->
    exists b0 b, rb_init cap n = Ok b0 /\ rbl_run b0 os = Ok b /\
      match cap with Some c => rb_len b <= c | None => True end.
  Proof.
    intros Hn Hf. destruct (raq_init_spec cap (@nil (list T))) as (q0 & H0 & Hm & Hi).
    unfold rb_init. rewrite H0. cbn [bind]. unfold nrb_init. replace (0 <? n) with true by lia.
    assert (Hinv : rb_inv cap (mk_nrb n q0 (fun _ => []))).
    { split; auto. cbn. rewrite Hi. destruct cap; reflexivity. }
    assert (Hrun : forall b0, rb_inv cap b0 -> exists b, rbl_run b0 os = Ok b /\ rb_inv cap b).
    { clear - Hf. induction os as [|o os IH]; intros b0 Hinv; cbn [rbl_run]; [eauto|].
      assert (Hs : exists b1, rbl_step b0 o = Ok b1 /\ rb_inv cap b1).
      { destruct Hinv as [Hm Hi]. destruct o as [[e x t|e]|f]; cbn [rbl_step nrb_step].
        - destruct (nrb_append_pushes b0 e x t) as (ws & last' & ->).
          destruct (@pushes_inv cap (nr_mem b0) ws Hm Hi) as (q' & -> & Hm' & Hi'). cbn [bind]. eexists; split; [reflexivity|]. split; auto.
        - destruct (nrb_stop_pushes b0 e) as (ws & last' & ->).
          destruct (@pushes_inv cap (nr_mem b0) ws Hm Hi) as (q' & -> & Hm' & Hi'). cbn [bind]. eexists; split; [reflexivity|]. split; auto.
        - specialize (Hf f (or_introl eq_refl)). destruct f as [q|l m]; cbn [file_ok rb_load] in *.
          + destruct Hf as [Hq Hl]. eexists; split; [reflexivity|]. split; cbn; auto.
            destruct cap as [c|]; cbn [trim]; auto. rewrite raq_len_iter in Hl.
            replace (length (raq_iter q) - c) with 0 by lia. reflexivity.
          + subst m. destruct (raq_init_spec cap l) as (q & -> & Hqm & Hqi). cbn [bind]. eexists; split; [reflexivity|].
            split; cbn; auto. rewrite Hqi. destruct cap as [c|]; cbn [trim]; auto. rewrite skipn_length.
            match goal with |- _ = skipn ?k _ => replace k with 0 by lia end. reflexivity. }
      destruct Hs as (b1 & -> & Hinv1). cbn [bind]. apply IH; auto. intros f Hin. apply Hf. right; auto. }
    destruct (Hrun _ Hinv) as (b & E & Hm' & Hi'). eexists; exists b. split; [reflexivity|]. split; [auto|].
    destruct cap as [c|]; auto. unfold rb_len. rewrite raq_len_iter, Hi'. cbn [trim]. rewrite skipn_length. lia.
  Qed.
End RB.
