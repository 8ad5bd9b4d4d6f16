From Verif Require Import Base.PyBase Model.Categorical Model.StatelessRecurrent Spec.StatelessRecurrentSpec.
Set Implicit Arguments.

(** * Lists *)
Lemma mapM_char : forall X Y (f : X -> res Y) l ys, mapM f l = Ok ys <-> Forall2 (fun x y => f x = Ok y) l ys.
Proof.
  intros X Y f. induction l as [|x l IH]; intros ys; cbn.
  - split; intros H; [injection H as <-; constructor | inversion H; reflexivity].
  - split; intros H.
    + destruct (f x) eqn:E; cbn in H; [|discriminate].
      destruct (mapM f l) eqn:E2; cbn in H; [|discriminate]. injection H as <-.
      constructor; [exact E | apply IH; reflexivity].
    + inversion H as [|? y ? ys' H1 H2]; subst. rewrite H1. cbn. apply IH in H2. rewrite H2. reflexivity.
Qed.

Lemma Forall2_nth_intro : forall X Y (P : X -> Y -> Prop) l l', length l = length l' ->
  (forall i x y, nth_error l i = Some x -> nth_error l' i = Some y -> P x y) -> Forall2 P l l'.
Proof.
  intros X Y P. induction l as [|x l IH]; intros [|y l'] L H; cbn in L; try discriminate; constructor.
  - exact (H 0 x y eq_refl eq_refl).
  - apply IH; [lia | intros i; exact (H (S i))].
Qed.

Lemma Forall2_nth_elim : forall X Y (P : X -> Y -> Prop) l l', Forall2 P l l' ->
  length l = length l' /\ forall i x y, nth_error l i = Some x -> nth_error l' i = Some y -> P x y.
Proof.
  intros X Y P l l' H. induction H as [|x y l l' H1 H2 [L IH]]; cbn; split; try lia.
  - intros [|i]; discriminate.
  - intros [|i] a b; cbn; intros E1 E2; [injection E1 as <-; injection E2 as <-; exact H1 | eauto].
Qed.

Lemma nth_ext_error : forall X (l l' : list X), length l = length l' ->
  (forall i x, nth_error l i = Some x -> nth_error l' i = Some x) -> l = l'.
Proof.
  intros X. induction l as [|x l IH]; intros [|y l'] L H; cbn in L; try discriminate; [reflexivity|].
  pose proof (H 0 x eq_refl) as E; cbn in E. injection E as ->. f_equal. apply IH; [lia|].
  intros i; exact (H (S i)).
Qed.

Lemma nth_is_some : forall X (l : list X) i, i < length l -> exists x, nth_error l i = Some x.
Proof.
  intros X l i H. destruct (nth_error l i) eqn:E; [eauto|]. apply nth_error_None in E. lia.
Qed.
Lemma nth_lt : forall X (l : list X) i x, nth_error l i = Some x -> i < length l.
Proof. intros X l i x H. apply nth_error_Some. congruence. Qed.

Lemma nth_map : forall X Y (f : X -> Y) l i, nth_error (map f l) i = option_map f (nth_error l i).
Proof. intros X Y f. induction l as [|x l IH]; intros [|i]; cbn; auto. Qed.

Lemma nth_map_inv : forall X Y (f : X -> Y) l i y, nth_error (map f l) i = Some y ->
  exists x, nth_error l i = Some x /\ y = f x.
Proof.
  intros X Y f l i y H. rewrite nth_map in H. destruct (nth_error l i); cbn in H; [|discriminate].
  injection H as <-. eauto.
Qed.

Lemma nth_combine2 : forall X Y (a : list X) (b : list Y) i x y,
  nth_error a i = Some x -> nth_error b i = Some y -> nth_error (combine a b) i = Some (x, y).
Proof.
  intros X Y. induction a as [|u a IH]; intros [|w b] [|i] x y; cbn; intros H1 H2; try discriminate.
  - injection H1 as <-; injection H2 as <-; reflexivity.
  - auto.
Qed.

Lemma nth_repeat : forall X (x : X) n i y, nth_error (repeat x n) i = Some y -> y = x.
Proof. intros X x n i y H. apply nth_error_In in H. eapply repeat_spec; eauto. Qed.
Lemma nth_repeat_lt : forall X (x : X) n i, i < n -> nth_error (repeat x n) i = Some x.
Proof. intros X x. induction n as [|n IH]; intros [|i] H; cbn; try lia; [reflexivity | apply IH; lia]. Qed.

Lemma nth_seq : forall n s i, i < n -> nth_error (seq s n) i = Some (s + i).
Proof.
  induction n as [|n IH]; intros s [|i] H; cbn; try lia; [f_equal; lia|].
  rewrite IH by lia. f_equal; lia.
Qed.

Lemma zip_cons_spec : forall X (d : X) (f : nat -> list X) k s (l : list X), length l = k ->
  zip_cons l (map f (seq s k)) = map (fun i => nth (i - s) l d :: f i) (seq s k).
Proof.
  intros X d f. induction k as [|k IH]; intros s [|x l] L; cbn in L; try discriminate; [reflexivity|].
  cbn [seq map zip_cons]. f_equal.
  - rewrite Nat.sub_diag. reflexivity.
  - rewrite IH by lia. apply map_ext_in. intros i Hi. apply in_seq in Hi.
    replace (i - s) with (S (i - S s)) by lia. reflexivity.
Qed.

Lemma map_nth_seq : forall X (d : X) l, l = map (fun i => nth i l d) (seq 0 (length l)).
Proof.
  intros X d. induction l as [|x l IH]; cbn; [reflexivity|]. f_equal.
  rewrite <- seq_shift, map_map. exact IH.
Qed.

Lemma zip_star_spec : forall X (d : X) k ts, ts <> [] -> (forall t, In t ts -> length t = k) ->
  zip_star ts = map (fun i => map (fun t => nth i t d) ts) (seq 0 k).
Proof.
  intros X d k. induction ts as [|t ts IH]; [congruence|]. intros _ H.
  destruct ts as [|t2 ts].
  - cbn [zip_star map]. rewrite (map_nth_seq d t) at 1. rewrite map_map, (H t) by (left; reflexivity).
    reflexivity.
  - change (zip_star (t :: t2 :: ts)) with (zip_cons t (zip_star (t2 :: ts))).
    rewrite IH by (try congruence; intros u Hu; apply H; right; exact Hu).
    rewrite (@zip_cons_spec _ d) by (apply H; left; reflexivity).
    apply map_ext. intros i. rewrite Nat.sub_0_r. reflexivity.
Qed.

Lemma zip_star_len : forall X k (ts : list (list X)), ts <> [] -> (forall t, In t ts -> length t = k) ->
  length (zip_star ts) = k.
Proof.
  intros X k ts H1 H2. destruct k as [|k].
  - destruct ts as [|t ts]; [congruence|]. destruct ts as [|u ts].
    + cbn. rewrite map_length. apply H2. left; reflexivity.
    + specialize (H2 t (or_introl eq_refl)). destruct t; [reflexivity | discriminate].
  - destruct ts as [|[|d t] ts]; [congruence | specialize (H2 [] (or_introl eq_refl)); discriminate |].
    rewrite (@zip_star_spec _ d (S k)), map_length, seq_length by assumption. reflexivity.
Qed.

Lemma zip_star_nth : forall X k (ts : list (list X)) i c, ts <> [] -> (forall t, In t ts -> length t = k) ->
  nth_error (zip_star ts) i = Some c -> length c = length ts /\
  forall j t, nth_error ts j = Some t -> nth_error c j = nth_error t i.
Proof.
  intros X k ts i c H1 H2 H. pose proof (nth_lt _ _ H) as Hi.
  rewrite (zip_star_len H1 H2) in Hi. destruct ts as [|[|d t0] ts0] eqn:Ets; [congruence | specialize (H2 [] (or_introl eq_refl)); cbn in H2; lia |].
  rewrite <- Ets in *.
  rewrite (@zip_star_spec _ d k) in H by assumption.
  destruct (nth_map_inv _ _ _ H) as [q [Hq ->]]. rewrite nth_seq in Hq by exact Hi. injection Hq as <-.
  split; [apply map_length|]. intros j t Ht. rewrite nth_map, Ht. cbn.
  symmetry. apply nth_error_nth'. rewrite (H2 t) by (eapply nth_error_In; exact Ht). exact Hi.
Qed.

(** * Walking over recurrent layers *)
Section P.
Variables U V : Type.
Notation link := (link U V).
Notation sst := (sst V).
Notation rstate := (rstate V).
Notation val := (val U).

Section Ind.
  Variable P : link -> Prop.
  Hypothesis HL : forall p, P (LLstm p).
  Hypothesis HG : forall p, P (LGru p).
  Hypothesis HF : forall f, P (LFun f).
  Hypothesis HT : forall fs, P (LTup fs).
  Hypothesis HS : forall ls, Forall P ls -> P (LSeq ls).
  Hypothesis HB : forall ls, Forall P ls -> P (LBranch ls).
  Fixpoint link_ind2 (l : link) : P l :=
    let fix go (ls : list link) : Forall P ls :=
      match ls with [] => Forall_nil P | l :: ls => Forall_cons l (link_ind2 l) (go ls) end in
    match l with
    | LLstm p => HL p
    | LGru p => HG p
    | LFun f => HF f
    | LTup fs => HT fs
    | LSeq ls => HS (go ls)
    | LBranch ls => HB (go ls)
    end.
End Ind.

Definition recs (ls : list link) := filter (@is_recurrent U V) ls.

Lemma recs_in : forall ls i l, nth_error (recs ls) i = Some l -> In l ls /\ is_recurrent l = true.
Proof. intros ls i l H. apply nth_error_In in H. apply filter_In in H. exact H. Qed.

Lemma n_rec_recs : forall ls, n_rec ls = length (recs ls).
Proof. reflexivity. Qed.

Lemma each_rec_map : forall B (f : link -> B) ls, each_rec f ls = map f (recs ls).
Proof.
  intros B f. induction ls as [|l ls IH]; [reflexivity|]. unfold recs in *. cbn.
  destruct (is_recurrent l); cbn; rewrite IH; reflexivity.
Qed.

Lemma zip_rec_char : forall A B (f : link -> A -> B) ls xs, length xs = n_rec ls ->
  length (zip_rec f ls xs) = n_rec ls /\
  forall i l x, nth_error (recs ls) i = Some l -> nth_error xs i = Some x ->
                nth_error (zip_rec f ls xs) i = Some (f l x).
Proof.
  intros A B f. unfold n_rec, recs. induction ls as [|l ls IH]; intros xs L; cbn in *.
  - split; [reflexivity|]. intros [|i]; discriminate.
  - destruct (is_recurrent l) eqn:E; cbn in *.
    + destruct xs as [|x xs]; cbn in L; [discriminate|]. destruct (IH xs ltac:(lia)) as [L2 IH2].
      split; [cbn; lia|]. intros [|i] l' x'; cbn; intros H1 H2.
      * injection H1 as <-; injection H2 as <-; reflexivity.
      * apply IH2; assumption.
    + apply IH; exact L.
Qed.

Lemma all_rec_char : forall A (P : link -> A -> Prop) ls xs, all_rec P ls xs <->
  length xs = n_rec ls /\ forall i l x, nth_error (recs ls) i = Some l -> nth_error xs i = Some x -> P l x.
Proof.
  intros A P. unfold n_rec, recs. induction ls as [|l ls IH]; intros xs; cbn.
  - split.
    + intros ->. split; [reflexivity|]. intros [|i]; discriminate.
    + intros [L _]. destruct xs; [reflexivity | discriminate].
  - destruct (is_recurrent l) eqn:E; cbn; [|apply IH].
    destruct xs as [|x xs].
    + split; [contradiction|]. intros [L _]. discriminate.
    + rewrite IH. split.
      * intros [H1 [L H2]]. split; [cbn; lia|]. intros [|i] l' x'; cbn; intros E1 E2.
        -- injection E1 as <-; injection E2 as <-; exact H1.
        -- eauto.
      * intros [L H]. split; [exact (H 0 l x eq_refl eq_refl)|]. cbn in L. split; [lia|].
        intros i; exact (H (S i)).
Qed.

Lemma over_char : forall A B (op : link -> A -> res B) ls xs ys, length xs = n_rec ls -> length ys = n_rec ls ->
  (forall i l x y, nth_error (recs ls) i = Some l -> nth_error xs i = Some x -> nth_error ys i = Some y -> op l x = Ok y) ->
  over_children op ls xs = Ok ys.
Proof.
  intros A B op. unfold n_rec, recs. induction ls as [|l ls IH]; intros xs ys L1 L2 H; cbn in *.
  - destruct ys; [reflexivity | discriminate].
  - destruct (is_recurrent l) eqn:E; cbn in *.
    + destruct xs as [|x xs]; cbn in L1; [discriminate|]. destruct ys as [|y ys]; cbn in L2; [discriminate|].
      rewrite (H 0 l x y eq_refl eq_refl eq_refl). cbn.
      rewrite (IH xs ys); [reflexivity | lia | lia | intros i; exact (H (S i))].
    + apply IH; assumption.
Qed.

Lemma over_exists : forall A B (op : link -> A -> res B) (R : link -> A -> B -> Prop) ls xs, length xs = n_rec ls ->
  (forall i l x, nth_error (recs ls) i = Some l -> nth_error xs i = Some x -> exists y, op l x = Ok y /\ R l x y) ->
  exists ys, over_children op ls xs = Ok ys /\ length ys = n_rec ls /\
    forall i l x y, nth_error (recs ls) i = Some l -> nth_error xs i = Some x -> nth_error ys i = Some y ->
                    op l x = Ok y /\ R l x y.
Proof.
  intros A B op R. unfold n_rec, recs. induction ls as [|l ls IH]; intros xs L H; cbn in *.
  - exists []. split; [reflexivity|]. split; [reflexivity|]. intros [|i]; discriminate.
  - destruct (is_recurrent l) eqn:E; cbn in *.
    + destruct xs as [|x xs]; cbn in L; [discriminate|].
      destruct (H 0 l x eq_refl eq_refl) as [y [E1 R1]].
      destruct (IH xs ltac:(lia) (fun i => H (S i))) as [ys [E2 [L2 H2]]].
      exists (y :: ys). rewrite E1; cbn. rewrite E2; cbn. split; [reflexivity|]. split; [lia|].
      intros [|i] l' x' y'; cbn; intros A1 A2 A3.
      * injection A1 as <-; injection A2 as <-; injection A3 as <-; split; assumption.
      * eauto.
    + apply IH; assumption.
Qed.

Lemma over_inv : forall A B (op : link -> A -> res B) ls xs ys, over_children op ls xs = Ok ys -> length xs = n_rec ls ->
  length ys = n_rec ls /\ forall i l x y, nth_error (recs ls) i = Some l -> nth_error xs i = Some x ->
                    nth_error ys i = Some y -> op l x = Ok y.
Proof.
  intros A B op. unfold n_rec, recs. induction ls as [|l ls IH]; intros xs ys E L; cbn in *.
  - injection E as <-. split; [reflexivity|]. intros [|i]; discriminate.
  - destruct (is_recurrent l) eqn:El; cbn in *; [|eauto].
    destruct xs as [|x xs]; cbn in L; [discriminate|].
    destruct (op l x) as [y|] eqn:E1; cbn in E; [|discriminate].
    destruct (over_children op ls xs) as [ys'|] eqn:E2; cbn in E; [|discriminate]. injection E as <-.
    destruct (IH xs ys' E2 ltac:(lia)) as [L2 H2]. split; [cbn; lia|].
    intros [|i] l' x' y'; cbn; intros A1 A2 A3; [|eauto].
    injection A1 as <-; injection A2 as <-; injection A3 as <-; exact E1.
Qed.

(** * Getting states *)
Definition getc (i : nat) (l : link) (r : rstate) : res sst :=
  match r with RNone => Ok SNone | _ => get_at l r i end.

Definition get_ok_for (l : link) : Prop := forall opt n rs i, batched opt l n rs -> i < n ->
  is_recurrent l = true -> exists s, get_at l rs i = Ok s /\ shaped l s.

Lemma get_ok : forall l, get_ok_for l.
Proof.
  assert (HS : forall ls, Forall get_ok_for ls -> get_ok_for (LSeq ls)).
  { intros ls IH opt n rs i B Hi _.
    destruct rs as [|h c|h|rss]; cbn in B; try contradiction.
    + exists (STup (repeat SNone (n_rec ls))). split; [reflexivity|]. cbn. apply all_rec_char.
      split; [apply repeat_length|]. intros j l x _ H. rewrite (nth_repeat _ _ _ H). destruct l; exact I.
    + apply all_rec_char in B. destruct B as [L B].
      destruct (@over_exists _ _ (getc i) (fun l _ s => shaped l s) ls rss L) as [ss [E [L2 H2]]].
      { intros j l r Hl Hx. destruct (recs_in _ _ Hl) as [Hin Hrec]. rewrite Forall_forall in IH.
        destruct (IH l Hin opt n r i (B j l r Hl Hx) Hi Hrec) as [s [E1 E2]]. unfold getc.
        destruct r; eauto. exists SNone. split; [reflexivity|]. destruct l; exact I. }
      cbn. rewrite L, Nat.eqb_refl. unfold getc in E. rewrite E. cbn.
      eexists; split; [reflexivity|]. cbn. apply all_rec_char. split; [exact L2|].
      intros j l s Hl Hs. destruct (@nth_is_some _ rss j) as [r Hr2].
      { rewrite L, <- L2. eapply nth_lt; eauto. }
      eapply H2; eauto. }
  apply link_ind2; try (intros f opt n rs i B Hi Hr; discriminate Hr).
  - intros p opt n rs i B Hi _. destruct rs as [|h c|h|rss]; cbn in *; try contradiction.
    + exists SNone; split; [reflexivity | exact I].
    + destruct B as [B1 B2]. unfold column.
      destruct (@nth_is_some _ h i ltac:(lia)) as [hv ->]. destruct (@nth_is_some _ c i ltac:(lia)) as [cv ->].
      cbn. exists (SLstm hv cv); split; [reflexivity | exact I].
  - intros p opt n rs i B Hi _. destruct rs as [|h c|h|rss]; cbn in *; try contradiction.
    + exists SNone; split; [reflexivity | exact I].
    + unfold column. destruct (@nth_is_some _ h i ltac:(lia)) as [hv ->]. cbn.
      exists (SGru hv); split; [reflexivity | exact I].
  - exact HS.
  - exact HS.
Qed.

(** The state of one child, with None seen through. *)
Lemma getc_get : forall opt n (l : link) r i, batched opt l n r -> i < n -> is_recurrent l = true ->
  exists s0 s, getc i l r = Ok s0 /\ get_at l r i = Ok s /\ filled l s0 = filled l s /\ shaped l s0.
Proof.
  intros opt n l r i B Hi Hr. destruct (@get_ok l _ _ _ _ B Hi Hr) as [s [E Hs]].
  destruct r as [|h c|h|rss]; try (exists s, s; split; [exact E | split; [exact E | split; [reflexivity | exact Hs]]]).
  exists SNone, s. split; [reflexivity|]. split; [exact E|]. split; [|destruct l; exact I].
  destruct l; cbn in *; try (injection E as <-; reflexivity).
  - injection E as <-. f_equal. rewrite each_rec_map.
    destruct (@zip_rec_char _ _ (@filled U V) ls (repeat SNone (n_rec ls)) (repeat_length _ _)) as [L H].
    apply nth_ext_error; [rewrite map_length, L; reflexivity|].
    intros j x Hj. destruct (nth_map_inv _ _ _ Hj) as [l [Hl ->]].
    assert (Hlt : j < n_rec ls) by (apply nth_lt in Hl; exact Hl).
    rewrite (H j l SNone Hl (nth_repeat_lt _ Hlt)). destruct l; reflexivity.
  - injection E as <-. f_equal. rewrite each_rec_map.
    destruct (@zip_rec_char _ _ (@filled U V) ls (repeat SNone (n_rec ls)) (repeat_length _ _)) as [L H].
    apply nth_ext_error; [rewrite map_length, L; reflexivity|].
    intros j x Hj. destruct (nth_map_inv _ _ _ Hj) as [l [Hl ->]].
    assert (Hlt : j < n_rec ls) by (apply nth_lt in Hl; exact Hl).
    rewrite (H j l SNone Hl (nth_repeat_lt _ Hlt)). destruct l; reflexivity.
Qed.

Lemma batched_not_none : forall (l : link) n r, batched false l n r -> r <> RNone.
Proof. intros l n r B ->. destruct l; cbn in B; discriminate B. Qed.

Lemma getc_full : forall (l : link) n r i, batched false l n r -> getc i l r = get_at l r i.
Proof. intros l n r i B. apply batched_not_none in B. destruct r; [congruence|reflexivity..]. Qed.

(** * get after concatenate *)
Definition cat_get_for (l : link) : Prop := forall ss, is_recurrent l = true -> ss <> [] ->
  (forall s, In s ss -> shaped l s) ->
  exists rs, concat_states l ss = Ok rs /\ batched false l (length ss) rs /\
    forall j s, nth_error ss j = Some s -> get_at l rs j = Ok (filled l s).

Lemma cat_get : forall l, cat_get_for l.
Proof.
  assert (HS : forall ls, Forall cat_get_for ls -> cat_get_for (LSeq ls)).
  { intros ls IH ss _ Hne Hs. rewrite Forall_forall in IH.
    set (tup := fun s : sst => match s with STup t => t | _ => repeat SNone (n_rec ls) end).
    assert (Ht : forall s, In s ss -> length (tup s) = n_rec ls /\
              filled (LSeq ls) s = STup (zip_rec (@filled U V) ls (tup s)) /\
              forall i l x, nth_error (recs ls) i = Some l -> nth_error (tup s) i = Some x -> shaped l x).
    { intros s Hin. specialize (Hs s Hin). destruct s as [|h c|h|t]; cbn in Hs; try contradiction; cbn [tup].
      - split; [apply repeat_length|]. split.
        + cbn. f_equal. rewrite each_rec_map.
          destruct (@zip_rec_char _ _ (@filled U V) ls (repeat SNone (n_rec ls)) (repeat_length _ _)) as [L H].
          apply nth_ext_error; [rewrite map_length, L; reflexivity|].
          intros j x Hj. destruct (nth_map_inv _ _ _ Hj) as [l [Hl ->]].
          assert (Hlt : j < n_rec ls) by (apply nth_lt in Hl; exact Hl).
          rewrite (H j l SNone Hl (nth_repeat_lt _ Hlt)). destruct l; reflexivity.
        + intros i l x _ Hx. rewrite (nth_repeat _ _ _ Hx). destruct l; exact I.
      - apply all_rec_char in Hs. destruct Hs as [L H]. split; [exact L|]. split; [reflexivity | exact H]. }
    assert (Em : mapM (fun s => match s with
                                    | SNone => Ok (repeat SNone (n_rec ls))
                                    | STup t => if length t =? n_rec ls then Ok t else Raise AssertionError
                                    | _ => Raise AssertionError
                                    end) ss = Ok (map tup ss)).
    { apply mapM_char. apply Forall2_nth_intro; [rewrite map_length; reflexivity|].
      intros i s y E1 E2. rewrite nth_map, E1 in E2. cbn in E2. injection E2 as <-.
      apply nth_error_In in E1. destruct (Ht s E1) as [L _]. specialize (Hs s E1).
      destruct s as [|h c|h|t]; cbn in Hs; try contradiction; [reflexivity|].
      cbn in L |- *. rewrite L, Nat.eqb_refl. reflexivity. }
    assert (Hne2 : map tup ss <> []) by (destruct ss; [congruence | discriminate]).
    assert (Hlen : forall t, In t (map tup ss) -> length t = n_rec ls).
    { intros t Hin. apply in_map_iff in Hin. destruct Hin as [s [<- Hin]]. apply Ht; exact Hin. }
    cbn. rewrite Em. cbn [bind]. pose proof (zip_star_len Hne2 Hlen) as Lz. rewrite Lz, Nat.eqb_refl.
    destruct (@over_exists _ _ (@concat_states U V)
       (fun l col r => batched false l (length ss) r /\ forall j s, nth_error col j = Some s -> get_at l r j = Ok (filled l s))
       ls (zip_star (map tup ss)) Lz) as [rss [E [L2 H2]]].
    { intros i l col Hl Hc. destruct (recs_in _ _ Hl) as [Hin Hrec].
      destruct (zip_star_nth _ Hne2 Hlen Hc) as [Lc Hcol]. rewrite map_length in Lc.
      destruct (IH l Hin col Hrec) as [r [E1 [B1 G1]]].
      - destruct col; [|congruence]. destruct ss; [congruence | cbn in Lc; discriminate].
      - intros x Hx. apply In_nth_error in Hx. destruct Hx as [j Hj].
        destruct (@nth_is_some _ ss j) as [s Hsj]; [rewrite <- Lc; eapply nth_lt; eauto|].
        assert (Hts : nth_error (map tup ss) j = Some (tup s)) by (rewrite nth_map, Hsj; reflexivity).
        rewrite (Hcol _ _ Hts) in Hj.
        exact (proj2 (proj2 (Ht s (nth_error_In _ _ Hsj))) i l x Hl Hj).
      - exists r. rewrite Lc in B1. split; [exact E1|]. split; assumption. }
    rewrite E. cbn [bind]. exists (RTup rss). split; [reflexivity|].
    assert (Hall : forall i l r, nth_error (recs ls) i = Some l -> nth_error rss i = Some r ->
       exists col, nth_error (zip_star (map tup ss)) i = Some col /\ batched false l (length ss) r /\
         forall j s, nth_error col j = Some s -> get_at l r j = Ok (filled l s)).
    { intros i l r Hl Hr. destruct (@nth_is_some _ (zip_star (map tup ss)) i) as [col Hc].
      { rewrite Lz. apply nth_lt in Hl. exact Hl. }
      exists col. destruct (H2 i l col r Hl Hc Hr) as [_ [X1 X2]]. auto. }
    split.
    - apply all_rec_char. split; [exact L2|]. intros i l r Hl Hr. destruct (Hall i l r Hl Hr) as [col [_ [B _]]]. exact B.
    - intros j s Hj. cbn. rewrite L2, Nat.eqb_refl. pose proof (nth_error_In _ _ Hj) as Hin.
      destruct (Ht s Hin) as [Lt [Ef _]]. cbn in Ef. rewrite Ef.
      destruct (@zip_rec_char _ _ (@filled U V) ls (tup s) Lt) as [Lz2 Hz].
      erewrite over_char; [reflexivity | exact L2 | exact Lz2 |].
      intros i l r y Hl Hr Hy. destruct (Hall i l r Hl Hr) as [col [Hc [B G]]].
      change (getc j l r = Ok y). rewrite (getc_full _ _ _ j B).
      destruct (zip_star_nth _ Hne2 Hlen Hc) as [Lc Hcol].
      assert (Hts : nth_error (map tup ss) j = Some (tup s)) by (rewrite nth_map, Hj; reflexivity).
      destruct (@nth_is_some _ (tup s) i) as [x Hx]; [rewrite Lt; apply nth_lt in Hl; exact Hl|].
      rewrite (Hz i l x Hl Hx) in Hy. injection Hy as <-. apply G. rewrite (Hcol _ _ Hts). exact Hx. }
  apply link_ind2; try (intros f ss Hr; discriminate Hr); [| |exact HS|exact HS].
  - intros p ss _ Hne Hs.
    set (f := fun s : sst => match s with SLstm h c => (h, c) | _ => (lstm_zero p, lstm_zero p) end).
    cbn. assert (Em : mapM (fun s => match s with
                                  | SNone => Ok (lstm_zero p, lstm_zero p)
                                  | SLstm h c => Ok (h, c)
                                  | _ => Raise ValueError
                                  end) ss = Ok (map f ss)).
    { apply mapM_char. apply Forall2_nth_intro; [rewrite map_length; reflexivity|].
      intros i s y E1 E2. rewrite nth_map, E1 in E2. cbn in E2. injection E2 as <-.
      apply nth_error_In in E1. specialize (Hs s E1). destruct s; cbn in Hs; try contradiction; reflexivity. }
    rewrite Em. cbn. destruct ss as [|s0 ss0] eqn:Es; [congruence|]. rewrite <- Es in *.
    replace (length ss =? 0) with false by (subst ss; reflexivity).
    eexists; split; [reflexivity|]. rewrite !map_map. cbn. rewrite !map_length. split; [auto|].
    intros j s Hj. unfold column. rewrite !nth_map, Hj. cbn.
    specialize (Hs s (nth_error_In _ _ Hj)). destruct s; cbn in Hs; try contradiction; reflexivity.
  - intros p ss _ Hne Hs.
    set (f := fun s : sst => match s with SGru h => h | _ => gru_zero p end).
    cbn. assert (Em : mapM (fun s => match s with
                                  | SNone => Ok (gru_zero p)
                                  | SGru h => Ok h
                                  | _ => Raise AttributeError
                                  end) ss = Ok (map f ss)).
    { apply mapM_char. apply Forall2_nth_intro; [rewrite map_length; reflexivity|].
      intros i s y E1 E2. rewrite nth_map, E1 in E2. cbn in E2. injection E2 as <-.
      apply nth_error_In in E1. specialize (Hs s E1). destruct s; cbn in Hs; try contradiction; reflexivity. }
    rewrite Em. cbn. destruct ss as [|s0 ss0] eqn:Es; [congruence|]. rewrite <- Es in *.
    replace (length ss =? 0) with false by (subst ss; reflexivity).
    eexists; split; [reflexivity|]. cbn. rewrite !map_length. split; [auto|].
    intros j s Hj. unfold column. rewrite !nth_map, Hj. cbn.
    specialize (Hs s (nth_error_In _ _ Hj)). destruct s; cbn in Hs; try contradiction; reflexivity.
Qed.

(** * concatenate after get *)
Definition get_cat_for (l : link) : Prop := forall n rs, is_recurrent l = true -> 0 < n -> batched false l n rs ->
  exists ss, mapM (get_at l rs) (seq 0 n) = Ok ss /\ concat_states l ss = Ok rs.

Lemma get_all : forall (l : link) opt n rs, is_recurrent l = true -> batched opt l n rs ->
  exists ss, mapM (get_at l rs) (seq 0 n) = Ok ss /\ length ss = n /\
    forall j s, nth_error ss j = Some s -> get_at l rs j = Ok s /\ shaped l s.
Proof.
  intros l opt n rs Hr B.
  assert (H : forall m k, k + m <= n -> exists ss, mapM (get_at l rs) (seq k m) = Ok ss /\ length ss = m /\
     forall j s, nth_error ss j = Some s -> get_at l rs (k + j) = Ok s /\ shaped l s).
  { induction m as [|m IH]; intros k Hk; cbn.
    - exists []. split; [reflexivity|]. split; [reflexivity|]. intros [|j]; discriminate.
    - destruct (@get_ok l _ _ _ k B ltac:(lia) Hr) as [s [E Hs]]. rewrite E. cbn.
      destruct (IH (S k) ltac:(lia)) as [ss [E2 [L2 H2]]]. rewrite E2. cbn. eexists; split; [reflexivity|].
      split; [cbn; lia|]. intros [|j] x; cbn; intros Hx.
      + injection Hx as <-. rewrite Nat.add_0_r. split; assumption.
      + replace (k + S j) with (S k + j) by lia. apply H2; exact Hx. }
  destruct (H n 0 ltac:(lia)) as [ss Hss]. exists ss. exact Hss.
Qed.

Lemma get_cat : forall l, get_cat_for l.
Proof.
  assert (HS : forall ls, Forall get_cat_for ls -> get_cat_for (LSeq ls)).
  { intros ls IH n rs Hr Hn B. rewrite Forall_forall in IH.
    destruct (@get_all (LSeq ls) _ _ _ Hr B) as [ss [E [L G]]]. exists ss. split; [exact E|]. clear E.
    destruct rs as [|h c|h|rss]; cbn in B; try contradiction; [discriminate|].
    apply all_rec_char in B. destruct B as [Lr B].
    assert (Ht : forall j s, nth_error ss j = Some s -> exists t, s = STup t /\ length t = n_rec ls /\
       forall i l r x, nth_error (recs ls) i = Some l -> nth_error rss i = Some r -> nth_error t i = Some x ->
         get_at l r j = Ok x).
    { intros j s Hj. destruct (G j s Hj) as [Gj _]. cbn in Gj. rewrite Lr, Nat.eqb_refl in Gj.
      destruct (over_children _ ls rss) as [t|] eqn:Eo; cbn in Gj; [|discriminate]. injection Gj as <-.
      exists t. split; [reflexivity|]. destruct (over_inv _ _ _ Eo Lr) as [Lt Ho]. split; [exact Lt|].
      intros i l r x Hl Hr2 Hx. specialize (Ho i l r x Hl Hr2 Hx). rewrite <- (getc_full _ _ _ j (B i l r Hl Hr2)).
      exact Ho. }
    set (tup := fun s : sst => match s with STup t => t | _ => repeat SNone (n_rec ls) end).
    assert (Em : mapM (fun s => match s with
                                    | SNone => Ok (repeat SNone (n_rec ls))
                                    | STup t => if length t =? n_rec ls then Ok t else Raise AssertionError
                                    | _ => Raise AssertionError
                                    end) ss = Ok (map tup ss)).
    { apply mapM_char. apply Forall2_nth_intro; [rewrite map_length; reflexivity|].
      intros i s y E1 E2. rewrite nth_map, E1 in E2. cbn in E2. injection E2 as <-.
      destruct (Ht i s E1) as [t [-> [Lt _]]]. cbn. rewrite Lt, Nat.eqb_refl. reflexivity. }
    assert (Hne2 : map tup ss <> []) by (destruct ss; [cbn in L; lia | discriminate]).
    assert (Hlen : forall t, In t (map tup ss) -> length t = n_rec ls).
    { intros t Hin. apply in_map_iff in Hin. destruct Hin as [s [<- Hin]]. apply In_nth_error in Hin.
      destruct Hin as [j Hj]. destruct (Ht j s Hj) as [t [-> [Lt _]]]. exact Lt. }
    cbn. rewrite Em. cbn [bind]. pose proof (zip_star_len Hne2 Hlen) as Lz. rewrite Lz, Nat.eqb_refl.
    rewrite (@over_char _ _ (@concat_states U V) ls (zip_star (map tup ss)) rss Lz Lr); [reflexivity|].
    intros i l col r Hl Hc Hr2. destruct (recs_in _ _ Hl) as [Hin Hrec].
    destruct (IH l Hin n r Hrec Hn (B i l r Hl Hr2)) as [cs [Ec1 Ec2]].
    destruct (zip_star_nth _ Hne2 Hlen Hc) as [Lc Hcol]. rewrite map_length in Lc.
    replace col with cs; [exact Ec2|].
    apply mapM_char in Ec1. apply Forall2_nth_elim in Ec1. destruct Ec1 as [Lcs Hcs]. rewrite seq_length in Lcs.
    apply nth_ext_error; [lia|]. intros j x Hx.
    assert (Hj : j < n) by (apply nth_lt in Hx; lia).
    pose proof (Hcs j j x (nth_seq _ Hj) Hx) as Gx.
    destruct (@nth_is_some _ ss j ltac:(lia)) as [s Hsj]. destruct (Ht j s Hsj) as [t [-> [Lt Gt]]].
    assert (Hts : nth_error (map tup ss) j = Some t) by (rewrite nth_map, Hsj; reflexivity).
    rewrite (Hcol _ _ Hts). destruct (@nth_is_some _ t i) as [y Hy]; [rewrite Lt; apply nth_lt in Hl; exact Hl|].
    rewrite (Gt i l r y Hl Hr2 Hy) in Gx. injection Gx as ->. exact Hy. }
  apply link_ind2; try (intros f n rs Hr; discriminate Hr); [| |exact HS|exact HS].
  - intros p n rs Hr Hn B. destruct (@get_all (LLstm p) _ _ _ Hr B) as [ss [E [L G]]]. exists ss. split; [exact E|].
    destruct rs as [|h c|h|rss]; cbn in B; try contradiction; [discriminate|]. destruct B as [Lh Lc].
    assert (Hm : forall j s, nth_error ss j = Some s -> exists hv cv, s = SLstm hv cv /\ nth_error h j = Some hv /\ nth_error c j = Some cv).
    { intros j s Hj. destruct (G j s Hj) as [Gj _]. cbn in Gj. unfold column in Gj.
      destruct (nth_error h j) as [hv|]; cbn in Gj; [|discriminate].
      destruct (nth_error c j) as [cv|]; cbn in Gj; [|discriminate]. injection Gj as <-. eauto. }
    cbn. destruct (mapM _ ss) as [cols|] eqn:Em.
    + cbn. apply mapM_char in Em. apply Forall2_nth_elim in Em. destruct Em as [Lcols Hcols].
      replace (length ss =? 0) with false by (symmetry; apply Nat.eqb_neq; lia). f_equal.
      assert (Hcol : forall j x, nth_error cols j = Some x -> nth_error h j = Some (fst x) /\ nth_error c j = Some (snd x)).
      { intros j x Hx. destruct (@nth_is_some _ ss j) as [s Hs]; [rewrite Lcols; eapply nth_lt; eauto|].
        pose proof (Hcols j s x Hs Hx) as Hq. destruct (Hm j s Hs) as [hv [cv [-> [H1 H2]]]]. injection Hq as <-. auto. }
      f_equal; (apply nth_ext_error; [rewrite map_length; lia|]; intros j x Hx;
        destruct (nth_map_inv _ _ _ Hx) as [q [Hq ->]]; apply Hcol; exact Hq).
    + exfalso. assert (X : mapM (fun s => match s with
                                  | SNone => Ok (lstm_zero p, lstm_zero p)
                                  | SLstm h c => Ok (h, c)
                                  | _ => Raise ValueError
                                  end) ss = Ok (combine h c)).
      { apply mapM_char. apply Forall2_nth_intro; [rewrite combine_length; lia|].
        intros j s y Hs Hy. destruct (Hm j s Hs) as [hv [cv [-> [H1 H2]]]].
        rewrite (nth_combine2 _ _ _ H1 H2) in Hy. injection Hy as <-. reflexivity. }
      rewrite Em in X. discriminate X.
  - intros p n rs Hr Hn B. destruct (@get_all (LGru p) _ _ _ Hr B) as [ss [E [L G]]]. exists ss. split; [exact E|].
    destruct rs as [|h c|h|rss]; cbn in B; try contradiction; [discriminate|].
    assert (Hm : forall j s, nth_error ss j = Some s -> exists hv, s = SGru hv /\ nth_error h j = Some hv).
    { intros j s Hj. destruct (G j s Hj) as [Gj _]. cbn in Gj. unfold column in Gj.
      destruct (nth_error h j) as [hv|]; cbn in Gj; [|discriminate]. injection Gj as <-. eauto. }
    cbn. assert (X : mapM (fun s => match s with
                                  | SNone => Ok (gru_zero p)
                                  | SGru h => Ok h
                                  | _ => Raise AttributeError
                                  end) ss = Ok h).
    { apply mapM_char. apply Forall2_nth_intro; [lia|].
      intros j s y Hs Hy. destruct (Hm j s Hs) as [hv [-> H1]]. rewrite H1 in Hy. injection Hy as <-. reflexivity. }
    rewrite X. cbn. replace (length ss =? 0) with false by (symmetry; apply Nat.eqb_neq; lia). reflexivity.
Qed.

(** * Masking *)
Lemma mask_columns_ok : forall zero idx (h : list V), (forall i, In i idx -> i < length h) ->
  exists h', mask_columns zero idx h = Ok h' /\ length h' = length h /\
    forall j v, nth_error h j = Some v -> nth_error h' j = Some (if existsb (Nat.eqb j) idx then zero else v).
Proof.
  intros zero idx h H. unfold mask_columns.
  replace (forallb _ idx) with true
    by (symmetry; apply forallb_forall; intros i Hi; apply Nat.ltb_lt; apply H; exact Hi).
  eexists; split; [reflexivity|]. rewrite map_length, combine_length, seq_length. split; [lia|].
  intros j v Hj. rewrite nth_map, (@nth_combine2 _ _ _ _ j j v); [reflexivity | | exact Hj].
  apply nth_seq. eapply nth_lt; eauto.
Qed.

Definition mask_for (l : link) : Prop := forall opt n rs idx, is_recurrent l = true -> batched opt l n rs ->
  (forall i, In i idx -> i < n) ->
  exists rs', mask_at l rs idx = Ok rs' /\ batched opt l n rs' /\
    forall j s s', get_at l rs j = Ok s -> get_at l rs' j = Ok s' -> j < n ->
      filled l s' = if existsb (Nat.eqb j) idx then zero_state l else filled l s.

Lemma mask_none : forall (l : link) opt n idx, is_recurrent l = true -> batched opt l n RNone ->
  exists rs', mask_at l RNone idx = Ok rs' /\ batched opt l n rs' /\
    forall j s s', get_at l RNone j = Ok s -> get_at l rs' j = Ok s' -> j < n ->
      filled l s' = if existsb (Nat.eqb j) idx then zero_state l else filled l s.
Proof.
  intros l opt n idx Hr B. exists RNone. split; [destruct l; reflexivity|]. split; [exact B|].
  intros j s s' E1 E2 Hj. rewrite E1 in E2. injection E2 as <-.
  destruct (@getc_get opt n l RNone j B Hj Hr) as [s0 [s1 [E3 [E4 [E5 _]]]]].
  cbn in E3. injection E3 as <-. rewrite E1 in E4. injection E4 as <-. rewrite <- E5.
  destruct (existsb _ idx); destruct l; reflexivity.
Qed.

Lemma mask_ok : forall l, mask_for l.
Proof.
  assert (HS : forall ls, Forall mask_for ls -> mask_for (LSeq ls)).
  { intros ls IH opt n rs idx Hr B Hidx. rewrite Forall_forall in IH.
    destruct rs as [|h c|h|rss]; [apply mask_none; assumption | cbn in B; contradiction.. |].
    cbn in B. apply all_rec_char in B. destruct B as [L B]. cbn. rewrite L, Nat.eqb_refl.
    destruct (@over_exists _ _ (fun l r => mask_at l r idx)
       (fun l r r' => batched opt l n r' /\ forall j s s', get_at l r j = Ok s -> get_at l r' j = Ok s' -> j < n ->
          filled l s' = if existsb (Nat.eqb j) idx then zero_state l else filled l s) ls rss L) as [rss' [E [L2 H2]]].
    { intros i l r Hl Hx. destruct (recs_in _ _ Hl) as [Hin Hrec].
      destruct (IH l Hin opt n r idx Hrec (B i l r Hl Hx) Hidx) as [r' [E1 [B1 G1]]]. exists r'. auto. }
    rewrite E. cbn. eexists; split; [reflexivity|].
    assert (Hall : forall i l r', nth_error (recs ls) i = Some l -> nth_error rss' i = Some r' ->
       exists r, nth_error rss i = Some r /\ batched opt l n r' /\ forall j s s', get_at l r j = Ok s -> get_at l r' j = Ok s' -> j < n ->
          filled l s' = if existsb (Nat.eqb j) idx then zero_state l else filled l s).
    { intros i l r' Hl Hr'. destruct (@nth_is_some _ rss i) as [r Hr2].
      { rewrite L. apply nth_lt in Hl. exact Hl. }
      exists r. split; [exact Hr2|]. exact (proj2 (H2 i l r r' Hl Hr2 Hr')). }
    split.
    - apply all_rec_char. split; [exact L2|]. intros i l r Hl Hr2. destruct (Hall i l r Hl Hr2) as [r0 [_ [X _]]]. exact X.
    - clear E. intros j s s' E1 E2 Hj. cbn in E1, E2. rewrite L2, Nat.eqb_refl in E2.
      destruct (over_children _ ls rss) as [t|] eqn:Eo1; cbn in E1; [|discriminate]. injection E1 as <-.
      destruct (over_children _ ls rss') as [t'|] eqn:Eo2; cbn in E2; [|discriminate]. injection E2 as <-.
      destruct (over_inv _ _ _ Eo1 L) as [Lt Ht]. destruct (over_inv _ _ _ Eo2 L2) as [Lt' Ht'].
      destruct (@zip_rec_char _ _ (@filled U V) ls t Lt) as [Lz Hz].
      destruct (@zip_rec_char _ _ (@filled U V) ls t' Lt') as [Lz' Hz'].
      assert (Hel : forall i l, nth_error (recs ls) i = Some l -> exists x x', nth_error t i = Some x /\ nth_error t' i = Some x' /\
         filled l x' = if existsb (Nat.eqb j) idx then zero_state l else filled l x).
      { intros i l Hl. assert (Hi : i < n_rec ls) by (apply nth_lt in Hl; exact Hl).
        destruct (recs_in _ _ Hl) as [Hin Hrec].
        destruct (@nth_is_some _ t i ltac:(lia)) as [x Hx]. destruct (@nth_is_some _ t' i ltac:(lia)) as [x' Hx'].
        destruct (@nth_is_some _ rss' i ltac:(lia)) as [r' Hr'].
        destruct (Hall i l r' Hl Hr') as [r [Hr2 [B' G]]].
        destruct (@getc_get opt n l r j (B i l r Hl Hr2) Hj Hrec) as [a0 [a [A1 [A2 [A3 _]]]]].
        destruct (@getc_get opt n l r' j B' Hj Hrec) as [b0 [b [B1 [B2 [B3 _]]]]].
        exists x, x'. split; [exact Hx|]. split; [exact Hx'|].
        pose proof (Ht i l r x Hl Hr2 Hx) as Q1. pose proof (Ht' i l r' x' Hl Hr' Hx') as Q2.
        change (getc j l r = Ok x) in Q1. change (getc j l r' = Ok x') in Q2.
        rewrite A1 in Q1. injection Q1 as <-. rewrite B1 in Q2. injection Q2 as <-.
        rewrite B3, A3. apply (G j a b A2 B2 Hj). }
      cbn. destruct (existsb (Nat.eqb j) idx).
      + f_equal. rewrite each_rec_map. apply nth_ext_error; [rewrite map_length; exact Lz'|].
        intros i y Hy. assert (Hi : i < n_rec ls) by (apply nth_lt in Hy; lia).
        destruct (@nth_is_some _ (recs ls) i Hi) as [l Hl]. destruct (Hel i l Hl) as [x [x' [H1 [H3 H4]]]].
        rewrite (Hz' i l x' Hl H3) in Hy. injection Hy as <-. rewrite nth_map, Hl, H4. reflexivity.
      + f_equal. apply nth_ext_error; [lia|].
        intros i y Hy. assert (Hi : i < n_rec ls) by (apply nth_lt in Hy; lia).
        destruct (@nth_is_some _ (recs ls) i Hi) as [l Hl]. destruct (Hel i l Hl) as [x [x' [H1 [H3 H4]]]].
        rewrite (Hz' i l x' Hl H3) in Hy. injection Hy as <-. rewrite (Hz i l x Hl H1), H4. reflexivity. }
  apply link_ind2; try (intros f opt n rs idx Hr; discriminate Hr); [| |exact HS|exact HS].
  - intros p opt n rs idx Hr B Hidx. destruct rs as [|h c|h|rss]; [apply mask_none; assumption | | cbn in B; contradiction..].
    cbn in B. destruct B as [Lh Lc]. cbn. rewrite Lc, Lh, Nat.eqb_refl.
    destruct (@mask_columns_ok (lstm_zero p) idx c) as [c' [Ec [Lc' Hc']]]; [rewrite Lc; exact Hidx|].
    destruct (@mask_columns_ok (lstm_zero p) idx h) as [h' [Eh [Lh' Hh']]]; [rewrite Lh; exact Hidx|].
    rewrite Ec, Eh. cbn. eexists; split; [reflexivity|]. split; [cbn; lia|].
    intros j s s' E1 E2 Hj. cbn in E1, E2. unfold column in E1, E2.
    destruct (@nth_is_some _ h j ltac:(lia)) as [hv Ehv]. destruct (@nth_is_some _ c j ltac:(lia)) as [cv Ecv].
    rewrite (Hh' _ _ Ehv), (Hc' _ _ Ecv) in E2. rewrite Ehv, Ecv in E1. cbn in E1, E2.
    injection E1 as <-. injection E2 as <-. destruct (existsb _ idx); reflexivity.
  - intros p opt n rs idx Hr B Hidx. destruct rs as [|h c|h|rss]; [apply mask_none; assumption | cbn in B; contradiction | | cbn in B; contradiction].
    cbn in B. cbn.
    destruct (@mask_columns_ok (gru_zero p) idx h) as [h' [Eh [Lh' Hh']]]; [rewrite B; exact Hidx|].
    rewrite Eh. cbn. eexists; split; [reflexivity|]. split; [cbn; lia|].
    intros j s s' E1 E2 Hj. cbn in E1, E2. unfold column in E1, E2.
    destruct (@nth_is_some _ h j ltac:(lia)) as [hv Ehv].
    rewrite (Hh' _ _ Ehv) in E2. rewrite Ehv in E1. cbn in E1, E2.
    injection E1 as <-. injection E2 as <-. destruct (existsb _ idx); reflexivity.
Qed.

(** * Sequences: concatenating, splitting, rows *)
Definition typed (t : option nat) (v : val) (n : nat) : Prop :=
  has_ty t v /\ steps n v.
Definition tups (v : val) : list (list U) := match v with VTup t => t | VArr _ => [] end.

Lemma arrays_of : forall vs, (forall v, In v vs -> has_ty None v) -> vs = map (@VArr U) (map (@arr U) vs).
Proof.
  induction vs as [|v vs IH]; intros H; [reflexivity|]. cbn. rewrite <- IH by (intros w Hw; apply H; right; exact Hw).
  f_equal. specialize (H v (or_introl eq_refl)). destruct v; [reflexivity | contradiction].
Qed.
Lemma tuples_of : forall k vs, (forall v, In v vs -> has_ty (Some k) v) ->
  vs = map (@VTup U) (map tups vs) /\ forall t, In t (map tups vs) -> length t = k.
Proof.
  intros k vs H. split.
  - induction vs as [|v vs IH]; [reflexivity|]. cbn. rewrite <- IH by (intros w Hw; apply H; right; exact Hw).
    f_equal. specialize (H v (or_introl eq_refl)). destruct v; [contradiction | reflexivity].
  - intros t Ht. apply in_map_iff in Ht. destruct Ht as [v [<- Hv]]. specialize (H v Hv).
    destruct v; [contradiction | exact H].
Qed.

Lemma mapM_map_ok : forall X Y Z (f : X -> Y) (g : Y -> res Z) (h : X -> Z) l,
  (forall x, In x l -> g (f x) = Ok (h x)) -> mapM g (map f l) = Ok (map h l).
Proof.
  intros X Y Z f g h. induction l as [|x l IH]; intros H; [reflexivity|]. cbn.
  rewrite (H x (or_introl eq_refl)). cbn. rewrite IH by (intros y Hy; apply H; right; exact Hy). reflexivity.
Qed.

Lemma concat_arrays : forall xss, xss <> [] -> concat_seqs (map (@VArr U) xss) = Ok (VArr (concat xss)).
Proof.
  intros [|x xss] H; [congruence|]. unfold concat_seqs.
  change (map (@VArr U) (x :: xss)) with (VArr x :: map (@VArr U) xss).
  change (VArr x :: map (@VArr U) xss) with (map (@VArr U) (x :: xss)).
  cbn [map]. change (VArr x :: map (@VArr U) xss) with (map (@VArr U) (x :: xss)).
  rewrite (@mapM_map_ok _ _ _ (@VArr U) (@as_arr U) (fun x => x)) by reflexivity.
  rewrite map_id. reflexivity.
Qed.

Definition columns (k : nat) (tss : list (list (list U))) : list (list U) :=
  map (fun i => concat (map (fun t => nth i t []) tss)) (seq 0 k).

Lemma concat_tuples : forall k tss, tss <> [] -> (forall t, In t tss -> length t = k) ->
  concat_seqs (map (@VTup U) tss) = Ok (VTup (columns k tss)).
Proof.
  intros k [|t tss] H Hk; [congruence|]. cbn [map concat_seqs].
  rewrite (Hk t) by (left; reflexivity).
  assert (E : mapM (fun i => let! parts := mapM (@tuple_at U i) (map (@VTup U) (t :: tss)) in Ok (concat parts)) (seq 0 k)
              = Ok (columns k (t :: tss))).
  { apply mapM_char. apply Forall2_nth_intro; [unfold columns; rewrite map_length; reflexivity|].
    intros i a c Ha Hc. pose proof (nth_lt _ _ Ha) as Hi. rewrite seq_length in Hi.
    rewrite nth_seq in Ha by exact Hi. injection Ha as <-.
    unfold columns in Hc. rewrite nth_map, nth_seq in Hc by exact Hi. injection Hc as <-.
    rewrite (@mapM_map_ok _ _ _ (@VTup U) (@tuple_at U (0 + i)) (fun t => nth (0 + i) t [])); [reflexivity|].
    intros u Hu. unfold tuple_at. rewrite (nth_error_nth' u []); [reflexivity|]. rewrite (Hk u Hu). exact Hi. }
  cbn [map] in E. rewrite E. reflexivity.
Qed.

Lemma split_concat : forall X (xss : list (list X)) pre, xss <> [] ->
  split_axis (length pre) (starts (length pre) (map (@length X) xss)) (pre ++ concat xss) = xss.
Proof.
  intros X. induction xss as [|x xss IH]; intros pre H; [congruence|].
  destruct xss as [|y xss].
  - cbn. rewrite app_nil_r, skipn_app, skipn_all, Nat.sub_diag. reflexivity.
  - change (starts (length pre) (map (@length X) (x :: y :: xss)))
      with ((length pre + length x) :: starts (length pre + length x) (map (@length X) (y :: xss))).
    cbn [split_axis]. f_equal.
    + rewrite skipn_app, skipn_all, Nat.sub_diag. cbn [app skipn].
      change (concat (x :: y :: xss)) with (x ++ concat (y :: xss)).
      replace (length pre + length x - length pre) with (length x + 0) by lia.
      rewrite firstn_app_2. cbn. apply app_nil_r.
    + change (concat (x :: y :: xss)) with (x ++ concat (y :: xss)). rewrite app_assoc, <- app_length.
      apply IH. discriminate.
Qed.

Lemma nth_map_nth : forall X Y (f : X -> Y) l i d d', i < length l -> nth i (map f l) d' = f (nth i l d).
Proof. intros X Y f l i d d' H. rewrite (nth_indep _ d' (f d)) by (rewrite map_length; exact H). apply map_nth. Qed.

Lemma split_tuples : forall k tss lens, tss <> [] -> 0 < k -> (forall t, In t tss -> length t = k) ->
  Forall2 (fun t n => forall xs, In xs t -> length xs = n) tss lens ->
  zip_star (map (split_axis 0 (starts 0 lens)) (columns k tss)) = tss.
Proof.
  intros k tss lens Hne Hk Hlen Hst.
  assert (E : map (split_axis 0 (starts 0 lens)) (columns k tss) = map (fun i => map (fun t => nth i t []) tss) (seq 0 k)).
  { unfold columns. rewrite map_map. apply map_ext_in. intros i Hi. apply in_seq in Hi.
    assert (El : lens = map (@length U) (map (fun t => nth i t []) tss)).
    { clear Hne. induction Hst as [|t n tss lens H1 H2 IH]; [reflexivity|]. cbn. f_equal.
      - symmetry. apply H1. apply nth_In. rewrite (Hlen t) by (left; reflexivity). lia.
      - apply IH. intros u Hu; apply Hlen; right; exact Hu. }
    rewrite El. apply (@split_concat _ (map (fun t => nth i t []) tss) []).
    destruct tss; [congruence | discriminate]. }
  rewrite E.
  rewrite (@zip_star_spec _ [] (length tss)).
  - apply nth_ext_error; [rewrite map_length, seq_length; reflexivity|].
    intros j c Hc. pose proof (nth_lt _ _ Hc) as Hj. rewrite map_length, seq_length in Hj.
    rewrite nth_map, nth_seq in Hc by exact Hj. cbn in Hc. injection Hc as <-.
    rewrite map_map. destruct (@nth_is_some _ tss j Hj) as [t Ht]. rewrite Ht. f_equal.
    rewrite <- (Hlen t (nth_error_In _ _ Ht)).
    rewrite (map_nth_seq [] t) at 1. apply map_ext. intros i.
    rewrite (@nth_map_nth _ _ (fun t => nth i t []) tss j []) by exact Hj.
    f_equal. symmetry. apply nth_error_nth. exact Ht.
  - destruct k; [lia|]. discriminate.
  - intros u Hu. apply in_map_iff in Hu. destruct Hu as [i [<- _]]. apply map_length.
Qed.

Lemma typed_nonempty : forall k v n, typed (Some k) v n -> 0 < k.
Proof.
  intros k [xs|t] n [H1 H2]; [contradiction|]. cbn in H1, H2. destruct H2 as [H2 _].
  destruct t; [congruence|]. cbn in H1. lia.
Qed.

Lemma F2_left : forall X Y (P : X -> Prop) (Q : X -> Y -> Prop) l l', (forall x y, Q x y -> P x) -> Forall2 Q l l' ->
  forall x, In x l -> P x.
Proof.
  intros X Y P Q l l' H F. induction F as [|x y l l' H1 H2 IH]; intros z Hz; [contradiction|].
  destruct Hz as [E|Hz]; subst; eauto.
Qed.

(** Concatenating typed sequences succeeds and splitting gives them back. *)
Lemma cat_split : forall t vs lens, vs <> [] -> Forall2 (typed t) vs lens ->
  exists v, concat_seqs vs = Ok v /\ split_batched v (starts 0 lens) = vs.
Proof.
  intros t vs lens Hne F.
  assert (HT : forall v, In v vs -> has_ty t v).
  { eapply F2_left; [|exact F]. intros x y [H _]. exact H. }
  destruct t as [k|].
  - destruct (tuples_of k vs HT) as [Ev Hk]. set (tss := map tups vs) in *.
    assert (Hne2 : tss <> []) by (unfold tss; destruct vs; [congruence | discriminate]).
    exists (VTup (columns k tss)). split; [rewrite Ev; apply concat_tuples; assumption|].
    cbn. rewrite split_tuples; [symmetry; exact Ev | exact Hne2 | | exact Hk |].
    + destruct vs as [|v vs]; [congruence|]. inversion F; subst. eapply typed_nonempty; eauto.
    + unfold tss. clear -F. induction F as [|v n vs lens H1 H2 IH]; constructor; [|exact IH].
      destruct H1 as [H1 H3]. destruct v; [contradiction|]. exact (proj2 H3).
  - pose proof (arrays_of vs HT) as Ev. set (xss := map (@arr U) vs) in *.
    assert (Hne2 : xss <> []) by (unfold xss; destruct vs; [congruence | discriminate]).
    exists (VArr (concat xss)). split; [rewrite Ev; apply concat_arrays; exact Hne2|].
    cbn. replace lens with (map (@length U) xss).
    + pose proof (@split_concat _ xss [] Hne2) as Q. cbn [length app] in Q. rewrite Q. symmetry; exact Ev.
    + unfold xss. clear -F. induction F as [|v n vs lens H1 H2 IH]; [reflexivity|]. cbn. f_equal; [|exact IH].
      destruct H1 as [H1 H3]. destruct v; [exact H3 | contradiction].
Qed.

Lemma zip_cons_app : forall X (a b : list X) p q, length a = length p ->
  zip_cons (a ++ b) (p ++ q) = zip_cons a p ++ zip_cons b q.
Proof.
  intros X. induction a as [|x a IH]; intros b [|r p] q L; cbn in L; try discriminate; [reflexivity|].
  cbn. rewrite IH by lia. reflexivity.
Qed.

Lemma zip_star_app : forall X m (a b : list (list X)), length a = length b -> (forall x, In x a -> length x = m) ->
  (exists m', forall x, In x b -> length x = m') ->
  zip_star (map (fun p => fst p ++ snd p) (combine a b)) = zip_star a ++ zip_star b.
Proof.
  intros X m. induction a as [|x a IH]; intros [|y b] L Ha Hb; cbn in L; try discriminate; [reflexivity|].
  destruct a as [|x2 a].
  - destruct b; cbn in L; [|discriminate]. cbn. apply map_app.
  - destruct b as [|y2 b]; cbn in L; [discriminate|].
    change (zip_star (x :: x2 :: a)) with (zip_cons x (zip_star (x2 :: a))).
    change (zip_star (y :: y2 :: b)) with (zip_cons y (zip_star (y2 :: b))).
    rewrite <- zip_cons_app.
    + rewrite <- IH; [reflexivity | cbn; lia | intros z Hz; apply Ha; right; exact Hz |].
      destruct Hb as [m' Hb]. exists m'. intros z Hz; apply Hb; right; exact Hz.
    + rewrite (@zip_star_len _ m) by (try discriminate; intros z Hz; apply Ha; right; exact Hz).
      apply Ha. left; reflexivity.
Qed.

Lemma columns_cons : forall k t tss, length t = k ->
  columns k (t :: tss) = map (fun p => fst p ++ snd p) (combine t (columns k tss)).
Proof.
  intros k t tss L. apply nth_ext_error.
  - unfold columns. rewrite !map_length, combine_length, map_length, seq_length. lia.
  - unfold columns. intros i x Hx. pose proof (nth_lt _ _ Hx) as Hi. rewrite map_length, seq_length in Hi.
    rewrite nth_map, nth_seq in Hx by exact Hi. cbn in Hx. injection Hx as <-.
    rewrite nth_map. erewrite nth_combine2.
    + reflexivity.
    + apply nth_error_nth'. lia.
    + rewrite nth_map, nth_seq by exact Hi. reflexivity.
Qed.

Lemma sum_col : forall k tss lens, (forall t, In t tss -> length t = k) ->
  Forall2 (fun t n => forall xs, In xs t -> length xs = n) tss lens ->
  forall c, In c (columns k tss) -> length c = fold_right Nat.add 0 lens.
Proof.
  intros k tss lens Hk F c Hc. unfold columns in Hc. apply in_map_iff in Hc. destruct Hc as [i [<- Hi]].
  apply in_seq in Hi. induction F as [|t n tss lens H1 H2 IH]; [reflexivity|]. cbn. rewrite app_length.
  rewrite IH by (intros u Hu; apply Hk; right; exact Hu). f_equal.
  apply H1. apply nth_In. rewrite (Hk t) by (left; reflexivity). lia.
Qed.

Lemma zip_columns : forall k tss lens, tss <> [] -> 0 < k -> (forall t, In t tss -> length t = k) ->
  Forall2 (fun t n => forall xs, In xs t -> length xs = n) tss lens ->
  zip_star (columns k tss) = concat (map (@zip_star U) tss).
Proof.
  intros k. induction tss as [|t tss IH]; intros lens Hne Hk Hlen F; [congruence|].
  inversion F as [|? n ? lens' F1 F2]; subst.
  destruct tss as [|t2 tss].
  - cbn. rewrite app_nil_r. f_equal. unfold columns. cbn.
    etransitivity; [|symmetry; apply (map_nth_seq [] t)].
    rewrite (Hlen t) by (left; reflexivity). apply map_ext. intros i. apply app_nil_r.
  - rewrite columns_cons by (apply Hlen; left; reflexivity).
    rewrite (@zip_star_app _ n).
    + cbn [map concat]. f_equal. eapply IH; [discriminate | exact Hk | intros u Hu; apply Hlen; right; exact Hu | exact F2].
    + unfold columns. rewrite map_length, seq_length. apply Hlen. left; reflexivity.
    + exact F1.
    + exists (fold_right Nat.add 0 lens'). intros x Hx. eapply sum_col; [|exact F2|exact Hx].
      intros u Hu; apply Hlen; right; exact Hu.
Qed.

Lemma map_concat_map : forall X Y Z (f : Y -> Z) (g : X -> list Y) l,
  map f (concat (map g l)) = concat (map (fun x => map f (g x)) l).
Proof. intros. rewrite concat_map, map_map. reflexivity. Qed.

Lemma concat_single : forall X Y (f : X -> Y) xss, map f (concat xss) = concat (map (map f) xss).
Proof. intros. rewrite concat_map. reflexivity. Qed.

Lemma cat_rows : forall t vs lens v, vs <> [] -> Forall2 (typed t) vs lens -> concat_seqs vs = Ok v ->
  rows_of v = Ok (concat (map (@rows U) vs)).
Proof.
  intros t vs lens v Hne F E.
  assert (HT : forall v, In v vs -> has_ty t v).
  { eapply F2_left; [|exact F]. intros x y [H _]. exact H. }
  destruct t as [k|].
  - destruct (tuples_of k vs HT) as [Ev Hk]. set (tss := map tups vs) in *.
    assert (Hne2 : tss <> []) by (unfold tss; destruct vs; [congruence | discriminate]).
    assert (Hk0 : 0 < k).
    { destruct vs as [|w vs]; [congruence|]. inversion F; subst. eapply typed_nonempty; eauto. }
    assert (F2 : Forall2 (fun t n => forall xs, In xs t -> length xs = n) tss lens).
    { unfold tss. clear -F. induction F as [|w n vs lens H1 H2 IH]; constructor; [|exact IH].
      destruct H1 as [H1 H3]. destruct w; [contradiction|]. exact (proj2 H3). }
    rewrite Ev, concat_tuples with (k := k) in E by assumption. injection E as <-.
    rewrite Ev, map_map. change (map (fun x => rows (VTup x)) tss) with (map (@zip_star U) tss).
    rewrite <- (@zip_columns k _ _ Hne2 Hk0 Hk F2). unfold rows_of.
    pose proof (@sum_col k _ _ Hk F2) as Hc. destruct (columns k tss) as [|c cs] eqn:Ec.
    { exfalso. assert (L : length (columns k tss) = k) by (unfold columns; rewrite map_length, seq_length; reflexivity).
      rewrite Ec in L. cbn in L. lia. }
    replace (forallb _ (c :: cs)) with true; [reflexivity|]. symmetry. apply forallb_forall.
    intros x Hx. rewrite (Hc x Hx), (Hc c (or_introl eq_refl)). apply Nat.eqb_refl.
  - pose proof (arrays_of vs HT) as Ev. set (xss := map (@arr U) vs) in *.
    assert (Hne2 : xss <> []) by (unfold xss; destruct vs; [congruence | discriminate]).
    rewrite Ev, concat_arrays in E by exact Hne2. injection E as <-. cbn. f_equal.
    rewrite Ev, map_map, concat_single. reflexivity.
Qed.

Lemma rows_len : forall t v n, typed t v n -> length (rows v) = n.
Proof.
  intros t [xs|xss] n [_ H]; cbn in *; [rewrite map_length; exact H|].
  destruct H as [H1 H2]. apply zip_star_len; assumption.
Qed.

Lemma layer_fun : forall t vs lens f, vs <> [] -> Forall2 (typed t) vs lens ->
  Forall2 (typed None) (map (fun v => VArr (map f (rows v))) vs) lens /\
  concat_seqs (map (fun v => VArr (map f (rows v))) vs) = Ok (VArr (map f (concat (map (@rows U) vs)))).
Proof.
  intros t vs lens f Hne F. split.
  - clear Hne. induction F as [|v n vs lens H1 H2 IH]; constructor; [|exact IH]. split; [exact I|]. cbn.
    rewrite map_length. eapply rows_len; eauto.
  - rewrite <- (map_map (fun v => map f (rows v)) (@VArr U)), concat_arrays by (destruct vs; [congruence | discriminate]).
    rewrite map_concat_map. reflexivity.
Qed.

Lemma layer_tup : forall t vs lens (fs : list (list U -> U)), fs <> [] -> vs <> [] -> Forall2 (typed t) vs lens ->
  Forall2 (typed (Some (length fs))) (map (fun v => VTup (map (fun f => map f (rows v)) fs)) vs) lens /\
  concat_seqs (map (fun v => VTup (map (fun f => map f (rows v)) fs)) vs)
    = Ok (VTup (map (fun f => map f (concat (map (@rows U) vs))) fs)).
Proof.
  intros t vs lens fs Hfs Hne F. split.
  - clear Hne. induction F as [|v n vs lens H1 H2 IH]; constructor; [|exact IH]. split; [cbn; apply map_length|]. cbn.
    split; [destruct fs; [congruence | discriminate]|]. intros xs Hxs. apply in_map_iff in Hxs.
    destruct Hxs as [f [<- _]]. rewrite map_length. eapply rows_len; eauto.
  - rewrite <- (map_map (fun v => map (fun f => map f (rows v)) fs) (@VTup U)).
    rewrite concat_tuples with (k := length fs).
    + f_equal. f_equal. unfold columns. destruct fs as [|f0 fs0] eqn:Efs; [congruence|]. rewrite <- Efs in *.
      transitivity (map (fun f => map f (concat (map (@rows U) vs))) (map (fun i => nth i fs f0) (seq 0 (length fs)))).
      * rewrite map_map. apply map_ext_in. intros i Hi. apply in_seq in Hi. rewrite map_map, map_concat_map.
        f_equal. apply map_ext. intros v. rewrite (@nth_map_nth _ _ (fun f => map f (rows v)) fs i f0) by lia. reflexivity.
      * rewrite <- map_nth_seq. reflexivity.
    + destruct vs; [congruence | discriminate].
    + intros u Hu. apply in_map_iff in Hu. destruct Hu as [v [<- _]]. apply map_length.
Qed.

Lemma sections_starts : forall (xss : list (list U)) acc,
  cumsum_from acc (map (@py_len U) (removelast (map (@VArr U) xss))) = starts acc (map (@length U) xss).
Proof.
  induction xss as [|x xss IH]; intros acc; [reflexivity|]. destruct xss as [|y xss]; [reflexivity|].
  cbn [map removelast cumsum_from starts] in *. rewrite <- IH. reflexivity.
Qed.

(** * Forward *)
Definition fwd_for (l : link) : Prop := is_recurrent l = true -> forall t, out_ty l = Some t ->
  forall xss rs, xss <> [] -> batched true l (length xss) rs ->
  exists rs' vs v, n_step l true (map (@VArr U) xss) rs = Ok (OSplit vs, rs') /\
    concat_seqs vs = Ok v /\ n_step l false (map (@VArr U) xss) rs = Ok (OConcat v, rs') /\
    batched false l (length xss) rs' /\ Forall2 (typed t) vs (map (@length U) xss) /\
    forall j xs s, nth_error xss j = Some xs -> get_at l rs j = Ok s ->
      exists w s', nth_error vs j = Some w /\ run1 l xs s = (w, s') /\ get_at l rs' j = Ok s'.

Lemma branch_all_rec : forall ls, branch_ty (@out_ty U V) ls = true ->
  forall l, In l ls -> is_recurrent l = true /\ out_ty l = Some None.
Proof.
  induction ls as [|l ls IH]; intros H l' Hin; [contradiction|]. destruct Hin as [E|Hin]; cbn in H.
  - subst l'. destruct (out_ty l) as [[k|]|] eqn:El; try discriminate. split; [|reflexivity].
    destruct l; cbn in El |- *; congruence || reflexivity.
  - apply IH; [|exact Hin]. destruct (out_ty l) as [[k|]|]; try discriminate; exact H.
Qed.

Lemma recs_all : forall ls : list link, (forall l, In l ls -> is_recurrent l = true) -> recs ls = ls.
Proof.
  induction ls as [|l ls IH]; intros H; [reflexivity|]. unfold recs in *. cbn. rewrite (H l) by (left; reflexivity).
  f_equal. apply IH. intros x Hx; apply H; right; exact Hx.
Qed.

(** None and the expansion of None give the same run. *)
Lemma run_none : forall (l : link) t n j xs s0 s r, is_recurrent l = true -> out_ty l = Some t ->
  batched true l n r -> getc j l r = Ok s0 -> get_at l r j = Ok s -> run1 l xs s0 = run1 l xs s.
Proof.
  intros l t n j xs s0 s r Hr Ht B E0 E. destruct r; try (cbn in E0; rewrite E in E0; injection E0 as <-; reflexivity).
  cbn in E0. injection E0 as <-. destruct l; cbn in E; injection E as <-; try reflexivity.
  cbn. cbn in Ht. destruct (length ls =? 0); [discriminate|]. destruct (branch_ty _ ls) eqn:Eb; [|discriminate].
  rewrite n_rec_recs, recs_all by (intros l Hl; apply (branch_all_rec _ Eb l Hl)). reflexivity.
Qed.

Definition rep (h : outp U) (vs : list val) : Prop :=
  h = OSplit vs \/ exists v, h = OConcat v /\ concat_seqs vs = Ok v.

Lemma F2_ne : forall X Y (R : X -> Y -> Prop) l l', Forall2 R l l' -> l' <> [] -> l <> [].
Proof. intros X Y R l l' F H ->. inversion F; congruence. Qed.

Lemma rep_split : forall t h vs lens, vs <> [] -> rep h vs -> Forall2 (typed t) vs lens ->
  to_split (starts 0 lens) h = vs /\ exists v, to_concat h = Ok v /\ concat_seqs vs = Ok v.
Proof.
  intros t h vs lens Hne R F. destruct (cat_split Hne F) as [v [E1 E2]].
  destruct R as [->|[w [-> Ew]]]; cbn.
  - split; [reflexivity | eauto].
  - rewrite E1 in Ew. injection Ew as <-. split; [exact E2 | eauto].
Qed.

Lemma over_skip : forall A B (op : link -> A -> res B) l ls xs, is_recurrent l = false ->
  over_children op (l :: ls) xs = over_children op ls xs.
Proof. intros A B op l ls xs H. cbn. rewrite H. reflexivity. Qed.

Lemma all_skip : forall A (P : link -> A -> Prop) l ls xs, is_recurrent l = false ->
  all_rec P (l :: ls) xs = all_rec P ls xs.
Proof. intros A P l ls xs H. cbn. rewrite H. reflexivity. Qed.

Lemma seq_loop_ok : forall lens, lens <> [] -> forall ls, Forall fwd_for ls ->
  forall t t', seq_ty (@out_ty U V) t ls = Some t' -> forall h vs queue new, rep h vs ->
  Forall2 (typed t) vs lens -> all_rec (fun l r => batched true l (length lens) r) ls queue ->
  exists h' vs' new', seq_loop (fun l => n_step l true) (starts 0 lens) ls h queue new = Ok (h', ([], new ++ new')) /\
    rep h' vs' /\ Forall2 (typed t') vs' lens /\ all_rec (fun l r => batched false l (length lens) r) ls new' /\
    forall j v ss, nth_error vs j = Some v -> over_children (getc j) ls queue = Ok ss ->
      exists v' ss', nth_error vs' j = Some v' /\ seq1 (@run1 U V) ls v ss = (v', ss') /\
        over_children (getc j) ls new' = Ok ss'.
Proof.
  intros lens Hlens. induction ls as [|l ls IH]; intros IHl t t' Ht h vs queue new R F Q.
  - cbn in Ht, Q. injection Ht as <-. subst queue. exists h, vs, []. rewrite app_nil_r. cbn.
    split; [reflexivity|]. split; [exact R|]. split; [exact F|]. split; [reflexivity|].
    intros j v ss Hv E. injection E as <-. eauto.
  - inversion IHl as [|? ? Hl Hls]; subst. specialize (IH Hls).
    pose proof (F2_ne F Hlens) as Hne.
    destruct (rep_split Hne R F) as [Esp [v [Ec1 Ec2]]].
    destruct (is_recurrent l) eqn:Hr.
    + (* recurrent layer *)
      assert (Hty : exists t2, t = None /\ out_ty l = Some t2 /\ seq_ty (@out_ty U V) t2 ls = Some t').
      { destruct l; cbn in Hr; try discriminate Hr; cbn [seq_ty] in Ht; destruct t; try discriminate;
          destruct (out_ty _) as [t2|] eqn:E2; try discriminate; eauto. }
      destruct Hty as [t2 [-> [Ho Ht2]]].
      cbn [all_rec] in Q. rewrite Hr in Q. destruct queue as [|r queue]; [contradiction|]. destruct Q as [Q1 Q2].
      assert (HT : forall w, In w vs -> has_ty None w).
      { eapply F2_left; [|exact F]. intros x y [H _]. exact H. }
      pose proof (arrays_of vs HT) as Ev. set (xss := map (@arr U) vs) in *.
      assert (Hne2 : xss <> []) by (unfold xss; destruct vs; [congruence | discriminate]).
      assert (El : map (@length U) xss = lens).
      { unfold xss. clear -F. induction F as [|w n vs lens H1 H2 IH]; [reflexivity|]. cbn. f_equal; [|exact IH].
        destruct H1 as [H1 H3]. destruct w; [exact H3 | contradiction]. }
      assert (Eln : length lens = length xss) by (rewrite <- El, map_length; reflexivity).
      rewrite Eln in Q1.
      destruct (Hl Hr t2 Ho xss r Hne2 Q1) as [r' [vs2 [w [E1 [E2 [_ [B' [F' G']]]]]]]].
      cbn [seq_loop]. rewrite Hr, Esp, Ev, E1. cbn [bind fst snd].
      rewrite El in F'.
      destruct (IH t2 t' Ht2 (OSplit vs2) vs2 queue (new ++ [r']) (or_introl eq_refl) F' Q2)
        as [h' [vs' [new' [A1 [A2 [A3 [A4 A5]]]]]]].
      exists h', vs', (r' :: new'). rewrite <- app_assoc in A1. split; [exact A1|].
      split; [exact A2|]. split; [exact A3|]. split.
      { cbn [all_rec]. rewrite Hr. rewrite Eln. rewrite Eln in A4. split; assumption. }
      intros j u ss Hu Eo. cbn [over_children] in Eo. rewrite Hr in Eo.
      destruct (getc j l r) as [s0|] eqn:Eg; cbn [bind] in Eo; [|discriminate].
      destruct (over_children (getc j) ls queue) as [ss1|] eqn:Eo1; cbn [bind] in Eo; [|discriminate].
      injection Eo as <-.
      destruct (nth_map_inv _ _ _ Hu) as [xs [Hxs ->]].
      assert (Hj : j < length xss) by (eapply nth_lt; eauto).
      destruct (@getc_get _ _ l r j Q1 Hj Hr) as [q0 [q [X1 [X2 [_ _]]]]]. rewrite Eg in X1. injection X1 as <-.
      destruct (G' j xs q Hxs X2) as [y [s' [Y1 [Y2 Y3]]]].
      pose proof (@run_none l _ _ j xs _ _ r Hr Ho Q1 Eg X2) as Ern.
      destruct (A5 j y ss1 Y1 Eo1) as [v' [ss' [Z1 [Z2 Z3]]]].
      exists v', (s' :: ss'). split; [exact Z1|]. split.
      * assert (Hs1 : seq1 (@run1 U V) (l :: ls) (VArr xs) (s0 :: ss1)
                      = (let vs := run1 l xs s0 in let r := seq1 (@run1 U V) ls (fst vs) ss1 in (fst r, snd vs :: snd r))).
        { destruct l; cbn in Hr; try discriminate Hr; reflexivity. }
        rewrite Hs1, Ern, Y2. cbn [fst snd]. rewrite Z2. reflexivity.
      * cbn [over_children]. rewrite Hr, (getc_full _ _ _ j B'), Y3. cbn [bind]. rewrite Z3. reflexivity.
    + (* other layer *)
      rewrite all_skip in Q by exact Hr.
      cbn [seq_loop]. rewrite Hr, Ec1. cbn [bind].
      pose proof (cat_rows Hne F Ec2) as Er.
      destruct l as [p|p|f|fs|ls'|ls']; cbn in Hr; try discriminate Hr; cbn [seq_ty] in Ht; cbn [call_layer].
      * rewrite Er. cbn [bind].
        destruct (layer_fun f Hne F) as [F2 C2].
        destruct (IH None t' Ht (OConcat (VArr (map f (concat (map (@rows U) vs))))) _ queue new
                    (or_intror (ex_intro _ _ (conj eq_refl C2))) F2 Q) as [h' [vs' [new' [A1 [A2 [A3 [A4 A5]]]]]]].
        exists h', vs', new'. split; [exact A1|]. split; [exact A2|]. split; [exact A3|].
        split; [rewrite all_skip by reflexivity; exact A4|].
        intros j u ss Hu Eo. rewrite over_skip in Eo by reflexivity.
        destruct (A5 j (VArr (map f (rows u))) ss) as [v' [ss' [Z1 [Z2 Z3]]]]; [rewrite nth_map, Hu; reflexivity | exact Eo |].
        exists v', ss'. split; [exact Z1|]. split; [exact Z2|]. rewrite over_skip by reflexivity. exact Z3.
      * destruct (length fs =? 0) eqn:Ef; [discriminate|]. apply Nat.eqb_neq in Ef.
        assert (Hfs : fs <> []) by (destruct fs; [cbn in Ef; lia | discriminate]).
        rewrite Er. cbn [bind].
        destruct (layer_tup Hfs Hne F) as [F2 C2].
        destruct (IH (Some (length fs)) t' Ht (OConcat (VTup (map (fun f => map f (concat (map (@rows U) vs))) fs))) _ queue new
                    (or_intror (ex_intro _ _ (conj eq_refl C2))) F2 Q) as [h' [vs' [new' [A1 [A2 [A3 [A4 A5]]]]]]].
        exists h', vs', new'. split; [exact A1|]. split; [exact A2|]. split; [exact A3|].
        split; [rewrite all_skip by reflexivity; exact A4|].
        intros j u ss Hu Eo. rewrite over_skip in Eo by reflexivity.
        destruct (A5 j (VTup (map (fun f => map f (rows u)) fs)) ss) as [v' [ss' [Z1 [Z2 Z3]]]]; [rewrite nth_map, Hu; reflexivity | exact Eo |].
        exists v', ss'. split; [exact Z1|]. split; [exact Z2|]. rewrite over_skip by reflexivity. exact Z3.
Qed.

Lemma run_lstm_len : forall (p : lstm U V) xs h c, length (snd (run_lstm p h c xs)) = length xs.
Proof. intros p. induction xs as [|x xs IH]; intros h c; cbn; [reflexivity | rewrite IH; reflexivity]. Qed.
Lemma run_gru_len : forall (p : gru U V) xs h, length (snd (run_gru p h xs)) = length xs.
Proof. intros p. induction xs as [|x xs IH]; intros h; cbn; [reflexivity | rewrite IH; reflexivity]. Qed.

Lemma as_arr_all : forall xss, mapM (@as_arr U) (map (@VArr U) xss) = Ok xss.
Proof.
  intros xss. rewrite (@mapM_map_ok _ _ _ (@VArr U) (@as_arr U) (fun x => x)) by reflexivity. rewrite map_id. reflexivity.
Qed.

Lemma over_none : forall j ls, over_children (getc j) ls (repeat (@RNone V) (n_rec ls)) = Ok (repeat SNone (n_rec ls)).
Proof.
  intros j ls. apply over_char; try apply repeat_length. intros i l x y _ Hx Hy.
  rewrite (nth_repeat _ _ _ Hx), (nth_repeat _ _ _ Hy). reflexivity.
Qed.

Lemma queue_none : forall n ls, all_rec (fun (l : link) r => batched true l n r) ls (repeat RNone (n_rec ls)).
Proof.
  intros n ls. apply all_rec_char. split; [apply repeat_length|]. intros i l x _ Hx.
  rewrite (nth_repeat _ _ _ Hx). destruct l; reflexivity.
Qed.

Lemma fwd_seq : forall ls, Forall fwd_for ls -> fwd_for (LSeq ls).
Proof.
  intros ls IH _ t Ht xss rs Hne B. cbn in Ht.
  set (lens := map (@length U) xss).
  assert (Hlens : lens <> []) by (unfold lens; destruct xss; [congruence | discriminate]).
  assert (Lq : exists queue, (match rs with
                    | RNone => Ok (repeat RNone (n_rec ls))
                    | RTup q => if length q =? n_rec ls then Ok q else Raise AssertionError
                    | _ => Raise TypeError
                    end) = Ok queue /\ all_rec (fun l r => batched true l (length lens) r) ls queue /\
                    forall j s, get_at (LSeq ls) rs j = Ok s -> exists ss, s = STup ss /\ over_children (getc j) ls queue = Ok ss).
  { unfold lens. rewrite map_length. destruct rs as [|h c|h|rss]; cbn in B; try contradiction.
    - eexists; split; [reflexivity|]. split; [apply queue_none|]. intros j s E. cbn in E. injection E as <-.
      eexists; split; [reflexivity | apply over_none].
    - exists rss. pose proof B as B0. apply all_rec_char in B. destruct B as [L B]. rewrite L, Nat.eqb_refl.
      split; [reflexivity|]. split; [exact B0|]. intros j s E. cbn in E. rewrite L, Nat.eqb_refl in E.
      fold (getc j) in E. destruct (over_children _ ls rss) as [ss|] eqn:Eo; cbn in E; [|discriminate].
      injection E as <-. exists ss. split; reflexivity. }
  destruct Lq as [queue [Eq [Q Gq]]].
  assert (F0 : Forall2 (typed None) (map (@VArr U) xss) lens).
  { unfold lens. clear. induction xss as [|x xss IH]; constructor; [|exact IH]. split; [exact I | reflexivity]. }
  destruct (@seq_loop_ok lens Hlens ls IH None t Ht _ _ queue [] (or_introl eq_refl) F0 Q) as [h' [vs' [new' [A1 [A2 [A3 [A4 A5]]]]]]].
  cbn [app] in A1.
  pose proof (F2_ne A3 Hlens) as Hne'.
  destruct (rep_split Hne' A2 A3) as [Esp [v [Ec1 Ec2]]].
  assert (L' : length new' = n_rec ls) by (apply all_rec_char in A4; apply A4).
  assert (Hsec : sections_of (map (@VArr U) xss) = starts 0 lens) by (apply sections_starts).
  exists (RTup new'), vs', v.
  assert (N0 : length (map (@VArr U) xss) =? 0 = false)
    by (rewrite map_length; destruct xss; [congruence | reflexivity]).
  assert (Hn : forall split, n_step (LSeq ls) split (map (@VArr U) xss) rs =
     (let! h := (if split then Ok (OSplit (to_split (starts 0 lens) h'))
                 else let! v := to_concat h' in Ok (OConcat v)) in Ok (h, RTup new'))).
  { intros split. cbn [n_step]. rewrite N0. fold (n_rec ls). rewrite Eq. cbn [bind]. rewrite Hsec, A1. cbn [bind fst snd length Nat.eqb].
    rewrite L', Nat.eqb_refl. reflexivity. }
  split; [rewrite Hn; cbn [bind]; rewrite Esp; reflexivity|]. split; [exact Ec2|].
  split; [rewrite Hn, Ec1; reflexivity|]. split; [unfold lens in A4; rewrite map_length in A4; exact A4|].
  split; [exact A3|].
  intros j xs s Hj Es. destruct (Gq j s Es) as [ss [-> Eo]].
  destruct (A5 j (VArr xs) ss) as [v' [ss' [Z1 [Z2 Z3]]]]; [rewrite nth_map, Hj; reflexivity | exact Eo |].
  exists v', (STup ss'). split; [exact Z1|]. split.
  - cbn [run1]. rewrite Z2. reflexivity.
  - cbn [get_at]. rewrite L', Nat.eqb_refl. fold (getc j). change (fun (l : link) (r : rstate) => match r with RNone => Ok SNone | _ => get_at l r j end) with (getc j).
    rewrite Z3. reflexivity.
Qed.

Lemma branch_loop_ok : forall xss, xss <> [] -> forall ls, Forall fwd_for ls -> branch_ty (@out_ty U V) ls = true ->
  forall queue, all_rec (fun l r => batched true l (length xss) r) ls queue ->
  exists rss' yss, length yss = length ls /\ length rss' = length ls /\
    branch_loop (fun l => n_step l true (map (@VArr U) xss)) ls queue
      = Ok (combine (map (fun ys => OSplit (map (@VArr U) ys)) yss) rss') /\
    branch_loop (fun l => n_step l false (map (@VArr U) xss)) ls queue
      = Ok (combine (map (fun ys => OConcat (VArr (concat ys))) yss) rss') /\
    all_rec (fun l r => batched false l (length xss) r) ls rss' /\
    (forall ys, In ys yss -> map (@length U) ys = map (@length U) xss) /\
    forall j xs ss, nth_error xss j = Some xs -> over_children (getc j) ls queue = Ok ss ->
      exists ss', length ss' = length ls /\ branch1 (fun l => run1 l xs) ls ss = combine (map (fun ys => VArr (nth j ys [])) yss) ss' /\
        over_children (getc j) ls rss' = Ok ss'.
Proof.
  intros xss Hne. induction ls as [|l ls IH]; intros IHl Hb queue Q.
  - exists [], []. cbn in Q. subst queue. split; [reflexivity|]. split; [reflexivity|]. split; [reflexivity|].
    split; [reflexivity|]. split; [reflexivity|]. split; [intros ys []|]. intros j xs ss Hj E. exists []. auto.
  - inversion IHl as [|? ? Hl Hls]; subst. specialize (IH Hls).
    destruct (branch_all_rec _ Hb l (or_introl eq_refl)) as [Hr Ho].
    assert (Hb2 : branch_ty (@out_ty U V) ls = true) by (cbn in Hb; rewrite Ho in Hb; exact Hb).
    cbn [all_rec] in Q. rewrite Hr in Q. destruct queue as [|r queue]; [contradiction|]. destruct Q as [Q1 Q2].
    destruct (IH Hb2 queue Q2) as [rss' [yss [L1 [L2 [E1 [E2 [B2 [Hlen G]]]]]]]].
    destruct (Hl Hr None Ho xss r Hne Q1) as [r' [vs [v [A1 [A2 [A3 [A4 [A5 A6]]]]]]]].
    assert (HT : forall w, In w vs -> has_ty None w).
    { eapply F2_left; [|exact A5]. intros x y [H _]. exact H. }
    pose proof (arrays_of vs HT) as Ev. set (ys := map (@arr U) vs) in *.
    assert (El : map (@length U) ys = map (@length U) xss).
    { unfold ys. revert A5. generalize (map (@length U) xss). clear. intros lens F.
      induction F as [|w n vs lens H1 H2 IH]; [reflexivity|]. cbn. f_equal; [|exact IH].
      destruct H1 as [H1 H3]. destruct w; [exact H3 | contradiction]. }
    assert (Hys : ys <> []) by (intros ->; destruct xss; [congruence | discriminate El]).
    rewrite Ev, concat_arrays in A2 by exact Hys. injection A2 as <-.
    exists (r' :: rss'), (ys :: yss). split; [cbn; lia|]. split; [cbn; lia|].
    split; [cbn [branch_loop map combine]; rewrite A1; cbn [bind]; rewrite E1; cbn [bind]; rewrite <- Ev; reflexivity|].
    split; [cbn [branch_loop map combine]; rewrite A3; cbn [bind]; rewrite E2; reflexivity|].
    split; [cbn [all_rec]; rewrite Hr; split; assumption|].
    split; [intros zs [<-|Hz]; [exact El | apply Hlen; exact Hz]|].
    intros j xs ss Hj Eo. cbn [over_children] in Eo. rewrite Hr in Eo.
    destruct (getc j l r) as [s0|] eqn:Eg; cbn [bind] in Eo; [|discriminate].
    destruct (over_children (getc j) ls queue) as [ss1|] eqn:Eo1; cbn [bind] in Eo; [|discriminate].
    injection Eo as <-.
    assert (Hlt : j < length xss) by (eapply nth_lt; eauto).
    destruct (@getc_get _ _ l r j Q1 Hlt Hr) as [q0 [q [X1 [X2 [_ _]]]]]. rewrite Eg in X1. injection X1 as <-.
    destruct (A6 j xs q Hj X2) as [w [s' [Y1 [Y2 Y3]]]].
    pose proof (@run_none l _ _ j xs _ _ r Hr Ho Q1 Eg X2) as Ern.
    destruct (G j xs ss1 Hj Eo1) as [ss' [Z0 [Z1 Z2]]].
    exists (s' :: ss'). split; [cbn; lia|]. split.
    + cbn [branch1 hd tl map combine]. rewrite Ern, Y2, Z1. f_equal. f_equal.
      rewrite Ev in Y1. destruct (nth_map_inv _ _ _ Y1) as [y [Hy ->]]. f_equal. symmetry. apply nth_error_nth. exact Hy.
    + cbn [over_children]. rewrite Hr, (getc_full _ _ _ j A4), Y3. cbn [bind]. rewrite Z2. reflexivity.
Qed.

Lemma combine_fst : forall X Y (a : list X) (b : list Y), length a = length b -> map fst (combine a b) = a.
Proof. intros X Y. induction a as [|x a IH]; intros [|y b] L; cbn in L; try discriminate; [reflexivity|]. cbn. rewrite IH by lia. reflexivity. Qed.
Lemma combine_snd : forall X Y (a : list X) (b : list Y), length a = length b -> map snd (combine a b) = b.
Proof. intros X Y. induction a as [|x a IH]; intros [|y b] L; cbn in L; try discriminate; [reflexivity|]. cbn. rewrite IH by lia. reflexivity. Qed.

Lemma mapM_fst : forall X Y Z (g : X -> res Z) (l : list (X * Y)), mapM (fun o => g (fst o)) l = mapM g (map fst l).
Proof. intros X Y Z g. induction l as [|x l IH]; [reflexivity|]. cbn. rewrite IH. reflexivity. Qed.

Lemma fwd_branch : forall ls, Forall fwd_for ls -> fwd_for (LBranch ls).
Proof.
  intros ls IH _ t Ht xss rs Hne B. cbn in Ht. destruct (length ls =? 0) eqn:E0; [discriminate|].
  apply Nat.eqb_neq in E0. destruct (branch_ty (@out_ty U V) ls) eqn:Hb; [|discriminate]. injection Ht as <-.
  assert (Hrec : recs ls = ls) by (apply recs_all; intros l Hl; apply (branch_all_rec _ Hb l Hl)).
  assert (Hnr : n_rec ls = length ls) by (rewrite n_rec_recs, Hrec; reflexivity).
  assert (Lq : exists queue, (match rs with
                    | RNone => Ok (repeat RNone (length ls))
                    | RTup q => Ok q
                    | _ => Raise TypeError
                    end) = Ok queue /\ all_rec (fun l r => batched true l (length xss) r) ls queue /\
                    forall j s, get_at (LBranch ls) rs j = Ok s -> exists ss, s = STup ss /\ over_children (getc j) ls queue = Ok ss).
  { destruct rs as [|h c|h|rss]; cbn in B; try contradiction.
    - eexists; split; [reflexivity|]. rewrite <- Hnr. split; [apply queue_none|]. intros j s E. cbn in E. injection E as <-.
      eexists; split; [reflexivity | apply over_none].
    - exists rss. split; [reflexivity|]. split; [exact B|]. apply all_rec_char in B. destruct B as [L B].
      intros j s E. cbn in E. rewrite L, Nat.eqb_refl in E.
      fold (getc j) in E. destruct (over_children _ ls rss) as [ss|] eqn:Eo; cbn in E; [|discriminate].
      injection E as <-. exists ss. split; reflexivity. }
  destruct Lq as [queue [Eq [Q Gq]]].
  destruct (@branch_loop_ok xss Hne ls IH Hb queue Q) as [rss' [yss [L1 [L2 [E1 [E2 [B2 [Hlen G]]]]]]]].
  assert (Hyne : yss <> []) by (intros ->; cbn in L1; lia).
  assert (Hyl : forall ys, In ys yss -> length ys = length xss).
  { intros ys Hy. rewrite <- (map_length (@length U) ys), (Hlen ys Hy). apply map_length. }
  pose proof (zip_star_len Hyne Hyl) as Lz.
  assert (Hzl : forall c, In c (zip_star yss) -> length c = length ls).
  { intros c Hc. apply In_nth_error in Hc. destruct Hc as [j Hj].
    destruct (zip_star_nth _ Hyne Hyl Hj) as [X _]. rewrite X. exact L1. }
  assert (Hzne : zip_star yss <> []) by (intros Ez; rewrite Ez in Lz; destruct xss; [congruence | discriminate Lz]).
  assert (Ecat : concat_seqs (map (@VTup U) (zip_star yss)) = Ok (VTup (map (@concat U) yss))).
  { rewrite concat_tuples with (k := length ls) by assumption. f_equal. f_equal. unfold columns.
    apply nth_ext_error; [rewrite !map_length, seq_length; lia|].
    intros i x Hx. pose proof (nth_lt _ _ Hx) as Hi. rewrite map_length, seq_length in Hi.
    rewrite nth_map, nth_seq in Hx by exact Hi. cbn in Hx. injection Hx as <-.
    destruct (@nth_is_some _ yss i ltac:(lia)) as [ys Hys]. rewrite nth_map, Hys. cbn. f_equal. f_equal.
    apply nth_ext_error; [rewrite map_length, Lz; apply Hyl; eapply nth_error_In; eauto|].
    intros j y Hy. assert (Hj : j < length (zip_star yss)).
    { rewrite Lz, <- (Hyl ys (nth_error_In _ _ Hys)). eapply nth_lt; eauto. }
    destruct (@nth_is_some _ (zip_star yss) j Hj) as [c Hc]. rewrite nth_map, Hc. cbn. f_equal.
    apply nth_error_nth. destruct (zip_star_nth _ Hyne Hyl Hc) as [_ X]. rewrite (X i ys Hys). exact Hy. }
  exists (RTup rss'), (map (@VTup U) (zip_star yss)), (VTup (map (@concat U) yss)).
  assert (Lc1 : length (map (fun ys => OSplit (map (@VArr U) ys)) yss) = length rss') by (rewrite map_length; lia).
  assert (Lc2 : length (map (fun ys => OConcat (VArr (@concat U ys))) yss) = length rss') by (rewrite map_length; lia).
  split.
  { cbn [n_step]. rewrite Eq. cbn [bind]. rewrite E1. cbn [bind].
    rewrite combine_length, Lc1, L2, Nat.min_id. rewrite (proj2 (Nat.eqb_neq _ _) E0), Nat.eqb_refl.
    rewrite (@mapM_fst _ _ _ (@split_of U)), combine_fst by exact Lc1.
    rewrite (@mapM_map_ok _ _ _ (fun ys => OSplit (map (@VArr U) ys)) (@split_of U) (map (@VArr U))) by reflexivity.
    cbn [bind]. rewrite (@mapM_map_ok _ _ _ (map (@VArr U)) (mapM (@as_arr U)) (fun ys => ys)) by (intros ys _; apply as_arr_all).
    rewrite map_id. rewrite combine_snd by exact Lc1.
    destruct yss as [|y0 yss0]; [congruence|]. cbn [bind map].
    replace (length (map (@VArr U) y0) =? length (map (@VArr U) xss)) with true.
    - reflexivity.
    - symmetry. apply Nat.eqb_eq. rewrite !map_length. apply Hyl. left; reflexivity. }
  split; [exact Ecat|]. split.
  { cbn [n_step]. rewrite Eq. cbn [bind]. rewrite E2. cbn [bind].
    rewrite combine_length, Lc2, L2, Nat.min_id. rewrite (proj2 (Nat.eqb_neq _ _) E0).
    rewrite (@mapM_fst _ _ _ (@concat_of U)), combine_fst by exact Lc2.
    rewrite (@mapM_map_ok _ _ _ (fun ys => OConcat (VArr (concat ys))) (@concat_of U) (@concat U)) by reflexivity.
    cbn [bind]. rewrite combine_snd by exact Lc2. reflexivity. }
  split; [exact B2|]. split.
  { apply Forall2_nth_intro; [rewrite !map_length; exact Lz|].
    intros j v n Hv Hn. destruct (nth_map_inv _ _ _ Hv) as [c [Hc ->]]. split; [apply Hzl; eapply nth_error_In; eauto|].
    pose proof (Hzl c (nth_error_In _ _ Hc)) as Lc.
    cbn. split; [intros ->; cbn in Lc; lia|]. intros xs Hxs. apply In_nth_error in Hxs. destruct Hxs as [i Hi].
    destruct (@nth_is_some _ yss i) as [ys Hys]; [rewrite L1, <- Lc; eapply nth_lt; eauto|].
    destruct (zip_star_nth _ Hyne Hyl Hc) as [_ X]. rewrite (X i ys Hys) in Hi.
    assert (Hl2 : nth_error (map (@length U) ys) j = Some (length xs)) by (rewrite nth_map, Hi; reflexivity).
    rewrite (Hlen ys (nth_error_In _ _ Hys)), Hn in Hl2. injection Hl2 as ->. reflexivity. }
  intros j xs s Hj Es. destruct (Gq j s Es) as [ss [-> Eo]].
  destruct (G j xs ss Hj Eo) as [ss' [Z0 [Z1 Z2]]].
  assert (Hlt : j < length (zip_star yss)) by (rewrite Lz; eapply nth_lt; eauto).
  destruct (@nth_is_some _ (zip_star yss) j Hlt) as [c Hc].
  exists (VTup c), (STup ss'). split; [rewrite nth_map, Hc; reflexivity|].
  assert (L' : length rss' = n_rec ls) by (rewrite Hnr; exact L2).
  split.
  - cbn [run1]. rewrite Z1. f_equal.
    + f_equal. rewrite <- (map_map fst (@arr U)), combine_fst by (rewrite map_length; lia).
      rewrite map_map. cbn [arr]. destruct (zip_star_nth _ Hyne Hyl Hc) as [Lc X].
      apply nth_ext_error; [rewrite map_length; lia|]. intros i y Hy.
      destruct (nth_map_inv _ _ _ Hy) as [ys [Hys ->]]. rewrite (X i ys Hys). apply nth_error_nth'.
      rewrite (Hyl ys (nth_error_In _ _ Hys)), <- Lz. exact Hlt.
    + f_equal. apply combine_snd. rewrite map_length. lia.
  - cbn [get_at]. rewrite L', Nat.eqb_refl.
    change (fun (l : link) (r : rstate) => match r with RNone => Ok SNone | _ => get_at l r j end) with (getc j).
    rewrite Z2. reflexivity.
Qed.

Lemma map_nth_error_iff : forall X Y (f : X -> Y) l i x, nth_error l i = Some x -> nth_error (map f l) i = Some (f x).
Proof. intros X Y f l i x H. rewrite nth_map, H. reflexivity. Qed.

Theorem fwd_ok : forall l, fwd_for l.
Proof.
  apply link_ind2; [| | intros f Hr; discriminate Hr | intros fs Hr; discriminate Hr | exact fwd_seq | exact fwd_branch].
  - intros p _ t Ht xss rs Hne B. cbn in Ht. injection Ht as <-.
    assert (Lq : exists h c, (match rs with
                 | RNone => Ok (repeat (lstm_zero p) (length (map (@VArr U) xss)), repeat (lstm_zero p) (length (map (@VArr U) xss)))
                 | RLstm h c => Ok (h, c)
                 | _ => Raise ValueError
                 end) = Ok (h, c) /\ length h = length xss /\ length c = length xss /\
                 forall j s, j < length xss -> get_at (LLstm p) rs j = Ok s -> exists hv cv, nth_error h j = Some hv /\ nth_error c j = Some cv /\
                   (match s with SLstm h c => (h, c) | _ => (lstm_zero p, lstm_zero p) end) = (hv, cv)).
    { rewrite map_length. destruct rs as [|h c|h|rss]; cbn in B; try contradiction.
      - do 2 eexists. split; [reflexivity|]. rewrite !repeat_length. split; [reflexivity|]. split; [reflexivity|].
        intros j s Hj E. cbn in E. injection E as <-. exists (lstm_zero p), (lstm_zero p).
        rewrite nth_repeat_lt by exact Hj. auto.
      - exists h, c. destruct B as [B1 B2]. split; [reflexivity|]. split; [exact B1|]. split; [exact B2|].
        intros j s Hj E. cbn in E. unfold column in E.
        destruct (nth_error h j) as [hv|]; cbn in E; [|discriminate].
        destruct (nth_error c j) as [cv|]; cbn in E; [|discriminate]. injection E as <-. eauto. }
    destruct Lq as [h [c [Eq [Lh [Lc G]]]]].
    set (outs := map (fun q => run_lstm p (fst (fst q)) (snd (fst q)) (snd q)) (combine (combine h c) xss)).
    assert (Lo : length outs = length xss) by (unfold outs; rewrite map_length, !combine_length; lia).
    assert (Ho : forall j hv cv xs, nth_error h j = Some hv -> nth_error c j = Some cv -> nth_error xss j = Some xs ->
                 nth_error outs j = Some (run_lstm p hv cv xs)).
    { intros j hv cv xs H1 H2 H3. unfold outs. rewrite nth_map, (nth_combine2 _ _ _ (nth_combine2 _ _ _ H1 H2) H3). reflexivity. }
    exists (RLstm (map (fun r => fst (fst r)) outs) (map (fun r => snd (fst r)) outs)), (map (fun r => VArr (snd r)) outs),
           (VArr (concat (map snd outs))).
    assert (Ecat : concat_seqs (map (fun r => VArr (snd r)) outs) = Ok (VArr (concat (map snd outs)))).
    { rewrite <- (map_map snd (@VArr U)). apply concat_arrays. destruct outs; [|discriminate].
      destruct xss; [congruence | discriminate Lo]. }
    assert (Hn : forall split, n_step (LLstm p) split (map (@VArr U) xss) rs =
       (let! o := output split (map (fun r => VArr (snd r)) outs) in
        Ok (o, RLstm (map (fun r => fst (fst r)) outs) (map (fun r => snd (fst r)) outs)))).
    { intros split. cbn [n_step]. rewrite Eq. cbn [bind]. rewrite as_arr_all. cbn [bind fst snd].
      rewrite map_length, Lh, Lc, Nat.eqb_refl. reflexivity. }
    split; [rewrite Hn; reflexivity|]. split; [exact Ecat|].
    split; [rewrite Hn; cbn [output]; rewrite Ecat; reflexivity|].
    split; [cbn; rewrite !map_length; auto|]. split.
    + apply Forall2_nth_intro; [rewrite !map_length; exact Lo|]. intros j v n Hv Hx.
      destruct (nth_map_inv _ _ _ Hv) as [r [Hr ->]]. destruct (nth_map_inv _ _ _ Hx) as [xs [Hxs ->]].
      split; [exact I|]. cbn. pose proof (nth_lt _ _ Hxs) as Hj.
      destruct (@nth_is_some _ h j ltac:(lia)) as [hv Hh]. destruct (@nth_is_some _ c j ltac:(lia)) as [cv Hc].
      rewrite (Ho j hv cv xs Hh Hc Hxs) in Hr. injection Hr as <-. apply run_lstm_len.
    + intros j xs s Hj Es. destruct (G j s (nth_lt _ _ Hj) Es) as [hv [cv [H1 [H2 H3]]]].
      pose proof (Ho j hv cv xs H1 H2 Hj) as Hoj.
      do 2 eexists. split; [rewrite nth_map, Hoj; reflexivity|]. cbn [run1]. rewrite H3. split; [reflexivity|].
      cbn [get_at]. unfold column. rewrite !nth_map, Hoj. reflexivity.
  - intros p _ t Ht xss rs Hne B. cbn in Ht. injection Ht as <-.
    assert (Lq : exists h, (match rs with
                 | RNone => Ok (repeat (gru_zero p) (length (map (@VArr U) xss)))
                 | RGru h => Ok h
                 | _ => Raise ValueError
                 end) = Ok h /\ length h = length xss /\
                 forall j s, j < length xss -> get_at (LGru p) rs j = Ok s -> exists hv, nth_error h j = Some hv /\
                   (match s with SGru h => h | _ => gru_zero p end) = hv).
    { rewrite map_length. destruct rs as [|h c|h|rss]; cbn in B; try contradiction.
      - eexists. split; [reflexivity|]. rewrite !repeat_length. split; [reflexivity|].
        intros j s Hj E. cbn in E. injection E as <-. exists (gru_zero p).
        rewrite nth_repeat_lt by exact Hj. auto.
      - exists h. split; [reflexivity|]. split; [exact B|].
        intros j s Hj E. cbn in E. unfold column in E.
        destruct (nth_error h j) as [hv|]; cbn in E; [|discriminate]. injection E as <-. eauto. }
    destruct Lq as [h [Eq [Lh G]]].
    set (outs := map (fun q => run_gru p (fst q) (snd q)) (combine h xss)).
    assert (Lo : length outs = length xss) by (unfold outs; rewrite map_length, !combine_length; lia).
    assert (Ho : forall j hv xs, nth_error h j = Some hv -> nth_error xss j = Some xs ->
                 nth_error outs j = Some (run_gru p hv xs)).
    { intros j hv xs H1 H3. unfold outs. rewrite nth_map, (nth_combine2 _ _ _ H1 H3). reflexivity. }
    exists (RGru (map fst outs)), (map (fun r => VArr (snd r)) outs), (VArr (concat (map snd outs))).
    assert (Ecat : concat_seqs (map (fun r => VArr (snd r)) outs) = Ok (VArr (concat (map snd outs)))).
    { rewrite <- (map_map snd (@VArr U)). apply concat_arrays. destruct outs; [|discriminate].
      destruct xss; [congruence | discriminate Lo]. }
    assert (Hn : forall split, n_step (LGru p) split (map (@VArr U) xss) rs =
       (let! o := output split (map (fun r => VArr (snd r)) outs) in Ok (o, RGru (map fst outs)))).
    { intros split. cbn [n_step]. rewrite Eq. cbn [bind]. rewrite as_arr_all. cbn [bind fst snd].
      rewrite map_length, Lh, Nat.eqb_refl. reflexivity. }
    split; [rewrite Hn; reflexivity|]. split; [exact Ecat|].
    split; [rewrite Hn; cbn [output]; rewrite Ecat; reflexivity|].
    split; [cbn; rewrite !map_length; auto|]. split.
    + apply Forall2_nth_intro; [rewrite !map_length; exact Lo|]. intros j v n Hv Hx.
      destruct (nth_map_inv _ _ _ Hv) as [r [Hr ->]]. destruct (nth_map_inv _ _ _ Hx) as [xs [Hxs ->]].
      split; [exact I|]. cbn. pose proof (nth_lt _ _ Hxs) as Hj.
      destruct (@nth_is_some _ h j ltac:(lia)) as [hv Hh].
      rewrite (Ho j hv xs Hh Hxs) in Hr. injection Hr as <-. apply run_gru_len.
    + intros j xs s Hj Es. destruct (G j s (nth_lt _ _ Hj) Es) as [hv [H1 H3]].
      pose proof (Ho j hv xs H1 Hj) as Hoj.
      do 2 eexists. split; [rewrite nth_map, Hoj; reflexivity|]. cbn [run1]. rewrite H3. split; [reflexivity|].
      cbn [get_at]. unfold column. rewrite !nth_map, Hoj. reflexivity.
Qed.

(** * A missing state runs as the zero state *)
Definition fill_for (l : link) : Prop := is_recurrent l = true -> forall t, out_ty l = Some t ->
  forall xs s, shaped l s -> run1 l xs (filled l s) = run1 l xs s.

Lemma filled_none : forall ls, zip_rec (@filled U V) ls (repeat SNone (n_rec ls)) = each_rec (@zero_state U V) ls.
Proof.
  intros ls. rewrite each_rec_map.
  destruct (@zip_rec_char _ _ (@filled U V) ls (repeat SNone (n_rec ls)) (repeat_length _ _)) as [L H].
  symmetry. apply nth_ext_error; [rewrite map_length, L; reflexivity|].
  intros j x Hj. destruct (nth_map_inv _ _ _ Hj) as [l [Hl ->]].
  assert (Hlt : j < n_rec ls) by (apply nth_lt in Hl; exact Hl).
  rewrite (H j l SNone Hl (nth_repeat_lt _ Hlt)). destruct l; reflexivity.
Qed.

Lemma shaped_tuple : forall ls s, shaped (LSeq ls) s ->
  exists ss, (match s with STup ss => ss | _ => repeat SNone (n_rec ls) end) = ss /\
    all_rec (@shaped U V) ls ss /\ filled (LSeq ls) s = STup (zip_rec (@filled U V) ls ss).
Proof.
  intros ls s H. destruct s as [|h c|h|ss]; cbn in H; try contradiction.
  - eexists; split; [reflexivity|]. split.
    + apply all_rec_char. split; [apply repeat_length|]. intros i l x _ Hx. rewrite (nth_repeat _ _ _ Hx).
      destruct l; exact I.
    + rewrite filled_none. reflexivity.
  - exists ss. split; [reflexivity|]. split; [exact H | reflexivity].
Qed.

Lemma seq1_filled : forall ls, Forall fill_for ls -> forall t t', seq_ty (@out_ty U V) t ls = Some t' ->
  forall v ss, all_rec (@shaped U V) ls ss ->
  seq1 (@run1 U V) ls v (zip_rec (@filled U V) ls ss) = seq1 (@run1 U V) ls v ss.
Proof.
  induction ls as [|l ls IH]; intros F t t' Ht v ss A; [reflexivity|].
  inversion F as [|? ? Fl Fls]; subst.
  destruct (is_recurrent l) eqn:Hr.
  - assert (Hty : exists t2, out_ty l = Some t2 /\ seq_ty (@out_ty U V) t2 ls = Some t').
    { destruct l; cbn in Hr; try discriminate Hr; cbn [seq_ty] in Ht; destruct t; try discriminate;
        destruct (out_ty _) as [t2|] eqn:E2; try discriminate; eauto. }
    destruct Hty as [t2 [Ho Ht2]].
    cbn [all_rec] in A. rewrite Hr in A. destruct ss as [|s ss]; [contradiction|]. destruct A as [A1 A2].
    cbn [zip_rec]. rewrite Hr.
    assert (E : forall s ss, seq1 (@run1 U V) (l :: ls) v (s :: ss)
                = (let vs := run1 l (arr v) s in let r := seq1 (@run1 U V) ls (fst vs) ss in (fst r, snd vs :: snd r))).
    { intros s1 ss1. destruct l; cbn in Hr; try discriminate Hr; reflexivity. }
    rewrite !E, (Fl Hr t2 Ho _ _ A1). cbv zeta. rewrite (IH Fls t2 t' Ht2 _ _ A2). reflexivity.
  - rewrite all_skip in A by exact Hr.
    destruct l; cbn in Hr; try discriminate Hr; cbn [seq_ty] in Ht; cbn [seq1 zip_rec is_recurrent].
    + apply (IH Fls _ _ Ht _ _ A).
    + destruct (length fs =? 0); [discriminate|]. apply (IH Fls _ _ Ht _ _ A).
Qed.

Lemma branch1_filled : forall xs ls, Forall fill_for ls -> branch_ty (@out_ty U V) ls = true ->
  forall ss, all_rec (@shaped U V) ls ss ->
  branch1 (fun l => run1 l xs) ls (zip_rec (@filled U V) ls ss) = branch1 (fun l => run1 l xs) ls ss.
Proof.
  intros xs. induction ls as [|l ls IH]; intros F Hb ss A; [reflexivity|].
  inversion F as [|? ? Fl Fls]; subst.
  destruct (branch_all_rec _ Hb l (or_introl eq_refl)) as [Hr Ho].
  assert (Hb2 : branch_ty (@out_ty U V) ls = true) by (cbn in Hb; rewrite Ho in Hb; exact Hb).
  cbn [all_rec] in A. rewrite Hr in A. destruct ss as [|s ss]; [contradiction|]. destruct A as [A1 A2].
  cbn [zip_rec]. rewrite Hr. cbn [branch1 hd tl]. rewrite (Fl Hr None Ho _ _ A1), (IH Fls Hb2 _ A2). reflexivity.
Qed.

Lemma run1_filled : forall l, fill_for l.
Proof.
  apply link_ind2; [| | intros f Hr; discriminate Hr | intros fs Hr; discriminate Hr | |].
  - intros p _ t _ xs s Hs. destruct s; cbn in Hs; try contradiction; reflexivity.
  - intros p _ t _ xs s Hs. destruct s; cbn in Hs; try contradiction; reflexivity.
  - intros ls F _ t Ht xs s Hs. destruct (shaped_tuple _ _ Hs) as [ss [E [A Ef]]]. rewrite Ef. cbn [run1]. rewrite E.
    cbn in Ht. rewrite (seq1_filled F _ Ht _ _ A). reflexivity.
  - intros ls F _ t Ht xs s Hs. cbn in Ht. destruct (length ls =? 0); [discriminate|].
    destruct (branch_ty (@out_ty U V) ls) eqn:Hb; [|discriminate].
    assert (Hnr : n_rec ls = length ls) by (rewrite n_rec_recs, recs_all; [reflexivity|]; intros l Hl; apply (branch_all_rec _ Hb l Hl)).
    destruct (shaped_tuple ls s Hs) as [ss [E [A Ef]]].
    change (filled (LBranch ls) s) with (filled (LSeq ls) s). rewrite Ef. cbn [run1]. rewrite <- Hnr, E.
    rewrite (branch1_filled xs F Hb _ A). reflexivity.
Qed.

(** A sequence in a batch is processed as if it were alone. *)
Lemma forward_alone : forall (l : link) t xss rs j xs s, is_recurrent l = true -> out_ty l = Some t ->
  batched true l (length xss) rs -> nth_error xss j = Some xs -> get_at l rs j = Ok s ->
  exists vs rs' v rs1 rs1' s', n_step l true (map (@VArr U) xss) rs = Ok (OSplit vs, rs') /\
    nth_error vs j = Some v /\ get_at l rs' j = Ok s' /\
    concat_states l [s] = Ok rs1 /\ n_step l true [VArr xs] rs1 = Ok (OSplit [v], rs1') /\
    get_at l rs1' 0 = Ok s'.
Proof.
  intros l t xss rs j xs s Hr Ht B Hj Es.
  assert (Hne : xss <> []) by (intros ->; destruct j; discriminate).
  destruct (@fwd_ok l Hr t Ht xss rs Hne B) as [rs' [vs [v0 [E1 [_ [_ [_ [_ G]]]]]]]].
  destruct (G j xs s Hj Es) as [v [s' [G1 [G2 G3]]]].
  destruct (@get_ok l _ _ _ j B (nth_lt _ _ Hj) Hr) as [sx [Ex Hs]]. rewrite Es in Ex. injection Ex as <-.
  destruct (@cat_get l [s] Hr ltac:(discriminate)) as [rs1 [C1 [C2 C3]]].
  { intros x [<-|[]]. exact Hs. }
  assert (B1 : batched true l (length [xs]) rs1).
  { clear -C2. revert rs1 C2. change (length [s]) with 1. change (length [xs]) with 1.
    induction l as [p|p|f|fs|ls IH|ls IH] using link_ind2; intros rs1 C; destruct rs1 as [|h c|h|rss]; cbn in *; try contradiction; try reflexivity; try exact C.
    - apply all_rec_char in C. destruct C as [L C]. apply all_rec_char. split; [exact L|]. intros i l r Hl Hx.
      rewrite Forall_forall in IH. apply IH; [apply (recs_in _ _ Hl) | exact (C i l r Hl Hx)].
    - apply all_rec_char in C. destruct C as [L C]. apply all_rec_char. split; [exact L|]. intros i l r Hl Hx.
      rewrite Forall_forall in IH. apply IH; [apply (recs_in _ _ Hl) | exact (C i l r Hl Hx)]. }
  destruct (@fwd_ok l Hr t Ht [xs] rs1 ltac:(discriminate) B1) as [rs1' [vs1 [v1 [D1 [_ [_ [_ [D5 D6]]]]]]]].
  destruct (D6 0 xs _ eq_refl (C3 0 s eq_refl)) as [w [s1' [F1 [F2 F3]]]].
  rewrite (@run1_filled l Hr t Ht xs s Hs), G2 in F2. injection F2 as <- <-.
  exists vs, rs', v, rs1, rs1', s'. repeat (split; [assumption|]). split; [|exact F3].
  change (map (@VArr U) [xs]) with [VArr xs] in D1. rewrite D1. f_equal. f_equal. f_equal.
  apply nth_ext_error; [apply Forall2_nth_elim in D5; rewrite (proj1 D5); reflexivity|].
  apply Forall2_nth_elim in D5. destruct D5 as [D5 _]. cbn in D5.
  intros [|i] x Hx; [rewrite F1 in Hx; injection Hx as <-; reflexivity|]. apply nth_lt in Hx. lia.
Qed.

(** One step for a batch. *)
Lemma call_ok : forall (l : link) t xs rs, is_recurrent l = true -> out_ty l = Some t -> xs <> [] ->
  batched true l (length xs) rs ->
  exists vs v rs', call_one_step l xs rs = Ok (OConcat v, rs') /\ batched false l (length xs) rs' /\
    concat_seqs vs = Ok v /\ length vs = length xs /\
    forall j x s, nth_error xs j = Some x -> get_at l rs j = Ok s ->
      exists w s', nth_error vs j = Some w /\ run1 l [x] s = (w, s') /\ get_at l rs' j = Ok s'.
Proof.
  intros l t xs rs Hr Ht Hne B. unfold call_one_step. rewrite <- (map_map (fun x => [x]) (@VArr U)).
  destruct (@fwd_ok l Hr t Ht (map (fun x => [x]) xs) rs) as [rs' [vs [v [E1 [E2 [E3 [E4 [E5 G]]]]]]]].
  - destruct xs; [congruence | discriminate].
  - rewrite map_length. exact B.
  - exists vs, v, rs'. split; [exact E3|]. rewrite map_length in E4. split; [exact E4|]. split; [exact E2|].
    split; [apply Forall2_nth_elim in E5; rewrite (proj1 E5), !map_length; reflexivity|].
    intros j x s Hj Es. apply G; [rewrite nth_map, Hj; reflexivity | exact Es].
Qed.
End P.
