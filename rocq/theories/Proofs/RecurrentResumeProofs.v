From Verif Require Import Base.PyBase Model.Categorical Model.StatelessRecurrent Spec.StatelessRecurrentSpec
  Model.RecurrentDQN Spec.RecurrentDQNSpec Proofs.StatelessRecurrentProofs Proofs.RecurrentDQNProofs.
Set Implicit Arguments.

Section P.
Variables U V : Type.
Notation link := (link U V).
Notation rstate := (rstate V).
Notation sst := (sst V).

Lemma run_lstm_app : forall (p : lstm U V) xs ys h c,
  run_lstm p h c (xs ++ ys) =
  let r := run_lstm p h c xs in let r2 := run_lstm p (fst (fst r)) (snd (fst r)) ys in (fst r2, snd r ++ snd r2).
Proof.
  intros p. induction xs as [|x xs IH]; intros ys h c; cbn.
  - destruct (run_lstm p h c ys); reflexivity.
  - rewrite IH. reflexivity.
Qed.
Lemma run_gru_app : forall (p : gru U V) xs ys h,
  run_gru p h (xs ++ ys) =
  let r := run_gru p h xs in let r2 := run_gru p (fst r) ys in (fst r2, snd r ++ snd r2).
Proof.
  intros p. induction xs as [|x xs IH]; intros ys h; cbn.
  - destruct (run_gru p h ys); reflexivity.
  - rewrite IH. reflexivity.
Qed.

Lemma run1_typed : forall (m : link) t xs s, is_recurrent m = true -> out_ty m = Some t -> shaped m s ->
  typed t (fst (run1 m xs s)) (length xs).
Proof.
  intros m t xs s Hr Ht Hs.
  destruct (@cat_get U V m [s] Hr) as [rs [E [B G]]]; [discriminate | intros s' [<-|[]]; exact Hs |].
  destruct (@fwd_ok U V m Hr t Ht [xs] rs) as [rs' [vs [v [E1 [E2 [E3 [B' [T H]]]]]]]];
    [discriminate | apply batched_weak, B|].
  destruct (H 0 xs (filled m s) eq_refl (G 0 s eq_refl)) as [w [s' [N [R G']]]].
  rewrite (@run1_filled U V m Hr t Ht xs s Hs) in R. rewrite R. cbn [fst].
  apply Forall2_nth_elim in T. destruct T as [_ T]. apply (T 0 w (length xs) N eq_refl).
Qed.

Definition app_for (l : link) : Prop := is_recurrent l = true -> forall t, out_ty l = Some t ->
  forall xs ys s, shaped l s ->
  run1 l (xs ++ ys) s = (after (fst (run1 l xs s)) (fst (run1 l ys (snd (run1 l xs s)))), snd (run1 l ys (snd (run1 l xs s)))).

Lemma rows_after : forall t (v w : val U) n k, typed t v n -> typed t w k -> rows (after v w) = rows v ++ rows w.
Proof.
  intros t [a|a] [b|b] n k [T1 S1] [T2 S2]; destruct t as [t|]; cbn in *; try contradiction.
  - apply map_app.
  - destruct S1 as [_ S1]. destruct S2 as [_ S2]. apply zip_star_app with (m := n); [lia | exact S1 | exists k; exact S2].
Qed.

Lemma combine_maps : forall X Y (f g : X -> list Y) l,
  map (fun p => fst p ++ snd p) (combine (map f l) (map g l)) = map (fun x => f x ++ g x) l.
Proof. intros X Y f g. induction l as [|x l IH]; [reflexivity|]. cbn. rewrite IH. reflexivity. Qed.

Lemma seq1_app : forall ls, Forall app_for ls -> forall t t', seq_ty (@out_ty U V) t ls = Some t' ->
  forall v w n k ss, typed t v n -> typed t w k -> all_rec (@shaped U V) ls ss ->
  seq1 (@run1 U V) ls (after v w) ss =
  (after (fst (seq1 (@run1 U V) ls v ss)) (fst (seq1 (@run1 U V) ls w (snd (seq1 (@run1 U V) ls v ss)))),
   snd (seq1 (@run1 U V) ls w (snd (seq1 (@run1 U V) ls v ss)))).
Proof.
  induction ls as [|l ls IH]; intros F t t' Ht v w n k ss Tv Tw A.
  - reflexivity.
  - inversion F as [|? ? Fl Fls]; subst.
    destruct (is_recurrent l) eqn:Hr.
    + assert (Hty : exists t2, t = None /\ out_ty l = Some t2 /\ seq_ty (@out_ty U V) t2 ls = Some t').
      { destruct l; cbn in Hr; try discriminate Hr; cbn [seq_ty] in Ht; destruct t; try discriminate;
          destruct (out_ty _) as [t2|] eqn:E2; try discriminate; eauto. }
      destruct Hty as [t2 [-> [Ho Ht2]]].
      cbn [all_rec] in A. rewrite Hr in A. destruct ss as [|s ss]; [contradiction|]. destruct A as [A1 A2].
      assert (E : forall v s ss, seq1 (@run1 U V) (l :: ls) v (s :: ss)
                  = (let vs := run1 l (arr v) s in let r := seq1 (@run1 U V) ls (fst vs) ss in (fst r, snd vs :: snd r))).
      { intros v1 s1 ss1. destruct l; cbn in Hr; try discriminate Hr; reflexivity. }
      rewrite !E. cbv zeta. cbn [fst snd]. rewrite !E. cbv zeta. cbn [fst snd].
      destruct v as [a|a]; [|destruct Tv as [[] _]]. destruct w as [b|b]; [|destruct Tw as [[] _]].
      cbn [after arr]. rewrite (Fl Hr t2 Ho a b s A1). cbn [fst snd].
      assert (Hs' : shaped l (snd (run1 l a s))) by (apply run1_shaped; [exact Hr | congruence | exact A1]).
      rewrite (IH Fls t2 t' Ht2 _ _ (length a) (length b) ss (run1_typed l a s Hr Ho A1) (run1_typed l b _ Hr Ho Hs') A2).
      reflexivity.
    + rewrite all_skip in A by exact Hr.
      destruct l; cbn in Hr; try discriminate Hr; cbn [seq_ty] in Ht; cbn [seq1].
      * rewrite (rows_after Tv Tw), map_app.
        change (VArr (map f (rows v) ++ map f (rows w))) with (after (VArr (map f (rows v))) (VArr (map f (rows w)))).
        apply (IH Fls _ _ Ht _ _ n k ss); [| |exact A]; (split; [exact I|]); cbn; rewrite map_length; eapply rows_len; eassumption.
      * destruct (length fs =? 0) eqn:Ef; [discriminate|]. rewrite (rows_after Tv Tw).
        replace (VTup (map (fun f => map f (rows v ++ rows w)) fs))
          with (after (VTup (map (fun f => map f (rows v)) fs)) (VTup (map (fun f => map f (rows w)) fs))).
        2: { cbn [after]. f_equal. rewrite combine_maps. apply map_ext. intros f. rewrite map_app. reflexivity. }
        apply Nat.eqb_neq in Ef.
        apply (IH Fls _ _ Ht _ _ n k ss); [| |exact A]; (split; [cbn; rewrite map_length; reflexivity|]); cbn;
          (split; [destruct fs; [cbn in Ef; lia | discriminate]|]); intros xs Hxs; apply in_map_iff in Hxs; destruct Hxs as [f [<- _]];
          rewrite map_length; eapply rows_len; eassumption.
Qed.

Lemma branch1_app : forall xs ys ls, Forall app_for ls -> branch_ty (@out_ty U V) ls = true ->
  forall ss, all_rec (@shaped U V) ls ss ->
  branch1 (fun l => run1 l (xs ++ ys)) ls ss =
  map (fun p => (after (fst (fst p)) (fst (snd p)), snd (snd p)))
    (combine (branch1 (fun l => run1 l xs) ls ss)
             (branch1 (fun l => run1 l ys) ls (map snd (branch1 (fun l => run1 l xs) ls ss)))) /\
  Forall (fun r => has_ty None (fst r)) (branch1 (fun l => run1 l xs) ls ss) /\
  Forall (fun r => has_ty None (fst r)) (branch1 (fun l => run1 l ys) ls (map snd (branch1 (fun l => run1 l xs) ls ss))) /\
  length (branch1 (fun l => run1 l xs) ls ss) =
  length (branch1 (fun l => run1 l ys) ls (map snd (branch1 (fun l => run1 l xs) ls ss))).
Proof.
  intros xs ys. induction ls as [|l ls IH]; intros F Hb ss A.
  - cbn. split; [reflexivity|]. split; [constructor|]. split; [constructor | reflexivity].
  - inversion F as [|? ? Fl Fls]; subst.
    destruct (branch_all_rec _ Hb l (or_introl eq_refl)) as [Hr Ho].
    assert (Hb2 : branch_ty (@out_ty U V) ls = true) by (cbn in Hb; rewrite Ho in Hb; exact Hb).
    cbn [all_rec] in A. rewrite Hr in A. destruct ss as [|s ss]; [contradiction|]. destruct A as [A1 A2].
    destruct (IH Fls Hb2 ss A2) as [E [T1 [T2 L]]].
    assert (Hs' : shaped l (snd (run1 l xs s))) by (apply run1_shaped; [exact Hr | congruence | exact A1]).
    cbn [branch1 hd tl map combine fst snd length]. rewrite E, (Fl Hr None Ho xs ys s A1).
    split; [reflexivity|]. split; [constructor; [apply (run1_typed l xs s Hr Ho A1) | exact T1]|].
    split; [constructor; [apply (run1_typed l ys _ Hr Ho Hs') | exact T2] | lia].
Qed.

(** Running a sequence in two pieces, carrying the state over. *)
Lemma run1_app : forall l, app_for l.
Proof.
  apply link_ind2; [| | intros f Hr; discriminate Hr | intros fs Hr; discriminate Hr | |].
  - intros p _ t _ xs ys s Hs. cbn. rewrite run_lstm_app. reflexivity.
  - intros p _ t _ xs ys s Hs. cbn. rewrite run_gru_app. reflexivity.
  - intros ls F _ t Ht xs ys s Hs. destruct (shaped_tuple _ _ Hs) as [ss [E [A _]]]. cbn [run1]. rewrite E. cbn [fst snd].
    cbn in Ht. change (VArr (xs ++ ys)) with (after (VArr xs) (VArr ys)).
    rewrite (@seq1_app ls F None t Ht (VArr xs) (VArr ys) (length xs) (length ys) ss); [reflexivity | | |exact A];
      (split; [exact I | reflexivity]).
  - intros ls F _ t Ht xs ys s Hs. cbn in Ht. destruct (length ls =? 0); [discriminate|].
    destruct (branch_ty (@out_ty U V) ls) eqn:Hb; [|discriminate].
    assert (Hnr : n_rec ls = length ls) by (rewrite n_rec_recs, recs_all; [reflexivity|]; intros l Hl; apply (branch_all_rec _ Hb l Hl)).
    destruct (shaped_tuple ls s Hs) as [ss [E [A _]]]. cbn [run1]. rewrite <- Hnr, E. cbn [fst snd].
    destruct (@branch1_app xs ys ls F Hb ss A) as [Eb [T1 [T2 L]]]. rewrite Eb.
    set (r1 := branch1 (fun l => run1 l xs) ls ss) in *. set (r2 := branch1 (fun l => run1 l ys) ls (map snd r1)) in *.
    clearbody r2. clearbody r1. clear - T1 T2 L. cbn [after]. f_equal; f_equal.
    + rewrite map_map. cbn [fst snd]. revert r2 L T2. induction r1 as [|a r1 IH]; intros [|b r2] L T2; cbn in L; try discriminate; [reflexivity|].
      inversion T1; subst. inversion T2; subst. cbn. rewrite IH by (assumption || lia). f_equal.
      destruct (fst a), (fst b); cbn in *; try contradiction; reflexivity.
    + rewrite map_map. cbn [snd]. revert r2 L T2. induction r1 as [|a r1 IH]; intros [|b r2] L T2; cbn in L; try discriminate; [reflexivity|].
      inversion T1; subst. inversion T2; subst. cbn. rewrite IH by (assumption || lia). reflexivity.
Qed.

Lemma resume : forall (l : link) xs ys s, is_recurrent l = true -> out_ty l <> None -> shaped l s ->
  let r1 := run1 l xs s in let r2 := run1 l ys (snd r1) in
  run1 l (xs ++ ys) s = (after (fst r1) (fst r2), snd r2).
Proof.
  intros l xs ys s Hr Ht Hs. destruct (out_ty l) as [t|] eqn:Et; [|congruence]. exact (@run1_app l Hr t Et xs ys s Hs).
Qed.

(** * Replaying stored experiences. *)
Lemma state_run : forall (m : link) xs h, is_recurrent m = true -> out_ty m <> None -> shaped m (state_after h) -> xs <> [] ->
  state_after (h ++ map (pair m) xs) = snd (run1 m xs (state_after h)).
Proof.
  intros m xs h Hr Ht Hs Hne. induction xs as [|x xs IH] using rev_ind; [congruence|].
  rewrite map_app. cbn [map]. rewrite app_assoc, state_snoc. destruct xs as [|x0 xs]; [cbn [map app]; rewrite app_nil_r; reflexivity|].
  rewrite IH by discriminate. rewrite (@resume m (x0 :: xs) [x] _ Hr Ht Hs). reflexivity.
Qed.

Lemma replay_step : forall (m0 m : link) h xs x, model_ok m0 m -> episode_ok m0 h -> xs <> [] ->
  fst (run1 m (xs ++ [x]) (state_after h)) =
  after (fst (run1 m xs (state_after h))) (fst (run1 m [x] (state_after (h ++ map (pair m) xs)))).
Proof.
  intros m0 m h xs x [R [T A]] Hh Hne.
  assert (Hs : shaped m (state_after h)) by (apply (ag_shaped (@same_agree U V m0 _ A)), state_shaped, Hh).
  rewrite (@resume m xs [x] _ R T Hs), state_run by assumption. reflexivity.
Qed.

Lemma replay_gen : forall (m0 m : link) (first : list (rtrans U V) -> res sst) (sel : rtrans U V -> U) eps (hs : nat -> episode U V),
  model_ok m0 m -> eps <> [] -> (forall j, episode_ok m0 (hs j)) ->
  (forall j ep, nth_error eps j = Some ep -> exists s, first ep = Ok s /\ stands m0 s (state_after (hs j))) ->
  exists vs v rs rs', mapM first eps = Ok rs /\
    (let! c := concat_states m rs in n_step m false (map (fun ep => VArr (map sel ep)) eps) c) = Ok (OConcat v, rs') /\
    concat_seqs vs = Ok v /\ length vs = length eps /\
    forall j ep, nth_error eps j = Some ep -> nth_error vs j = Some (fst (run1 m (map sel ep) (state_after (hs j)))).
Proof.
  intros m0 m first sel eps hs Hm Hne Hok Hf. destruct Hm as [R [T A]]. pose proof (@same_agree U V m0 _ A) as G.
  destruct (model_typed _ T) as [t Ht].
  assert (Hss : exists ss, mapM first eps = Ok ss /\ length ss = length eps /\
            forall j s, nth_error ss j = Some s -> stands m0 s (state_after (hs j))).
  { clear Hne. revert hs Hok Hf. induction eps as [|ep eps IH]; intros hs Hok Hf.
    - exists []. split; [reflexivity|]. split; [reflexivity|]. intros [|j]; discriminate.
    - destruct (Hf 0 ep eq_refl) as [s [Es Ss]].
      destruct (IH (fun j => hs (S j)) (fun j => Hok (S j)) (fun j ep' H => Hf (S j) ep' H)) as [ss [E [L Hs]]].
      exists (s :: ss). cbn. rewrite Es. cbn. rewrite E. split; [reflexivity|]. split; [cbn; lia|].
      intros [|j] s' Hj; cbn in Hj; [injection Hj as <-; exact Ss | apply Hs, Hj]. }
  destruct Hss as [ss [Ess [Lss Hss]]].
  destruct (@cat_get U V m ss R) as [rs [E [B Gt]]].
  { intros ->. destruct eps; [congruence | discriminate]. }
  { intros s Hs. apply In_nth_error in Hs. destruct Hs as [j Hj]. apply (ag_shaped G). apply (Hss j s Hj). }
  destruct (@fwd_ok U V m R t Ht (map (map sel) eps) rs) as [rs' [vs [v [E1 [E2 [E3 [B' [Tv H]]]]]]]].
  { destruct eps; [congruence | discriminate]. }
  { rewrite map_length, <- Lss. apply batched_weak, B. }
  exists vs, v, ss, rs'. split; [exact Ess|]. rewrite E. cbn [bind]. rewrite <- (map_map (map sel) (@VArr U)). split; [exact E3|]. split; [exact E2|].
  apply Forall2_nth_elim in Tv. destruct Tv as [Lv _]. rewrite !map_length in Lv. split; [exact Lv|].
  intros j ep Hj.
  destruct (@nth_is_some _ ss j) as [s Hs]; [apply nth_lt in Hj; lia|].
  destruct (H j (map sel ep) (filled m s)) as [w [s' [Nw [Rw _]]]].
  { rewrite nth_map, Hj. reflexivity. } { apply Gt, Hs. }
  rewrite Nw. f_equal. destruct (Hss j s Hs) as [_ Fs].
  rewrite <- (@run1_filled U V m R t Ht (map sel ep) (state_after (hs j))) by (apply (ag_shaped G), state_shaped, Hok).
  rewrite (ag_filled G), <- Fs, <- (ag_filled G), Rw. reflexivity.
Qed.

(** Each experience starts with a transition whose stored state stands for
    the state of the episode [hs j]. *)
Lemma replay_ok : forall (m0 m : link) eps (hs : nat -> episode U V),
  model_ok m0 m -> eps <> [] -> (forall j, episode_ok m0 (hs j)) ->
  (forall j ep, nth_error eps j = Some ep -> exists t rest, ep = t :: rest /\ stands m0 (rt_rec t) (state_after (hs j))) ->
  exists vs v rs, replay_values m eps = Ok (OConcat v, rs) /\ concat_seqs vs = Ok v /\ length vs = length eps /\
    forall j ep, nth_error eps j = Some ep -> nth_error vs j = Some (fst (run1 m (map (@rt_state U V) ep) (state_after (hs j)))).
Proof.
  intros m0 m eps hs Hm Hne Hok Hf.
  destruct (@replay_gen m0 m (@first_rec U V) (@rt_state U V) eps hs Hm Hne Hok) as [vs [v [ss [rs' [E1 [E2 [E3 [E4 E5]]]]]]]].
  { intros j ep Hj. destruct (Hf j ep Hj) as [t [rest [-> Hs]]]. exists (rt_rec t). split; [reflexivity | exact Hs]. }
  exists vs, v, rs'. unfold replay_values. rewrite E1. cbn [bind]. auto.
Qed.
Lemma replay_next_ok : forall (m0 m : link) eps (hs : nat -> episode U V),
  model_ok m0 m -> eps <> [] -> (forall j, episode_ok m0 (hs j)) ->
  (forall j ep, nth_error eps j = Some ep -> exists t rest, ep = t :: rest /\ stands m0 (rt_nrec t) (state_after (hs j))) ->
  exists vs v rs, replay_next_values m eps = Ok (OConcat v, rs) /\ concat_seqs vs = Ok v /\ length vs = length eps /\
    forall j ep, nth_error eps j = Some ep -> nth_error vs j = Some (fst (run1 m (map (@rt_next U V) ep) (state_after (hs j)))).
Proof.
  intros m0 m eps hs Hm Hne Hok Hf.
  destruct (@replay_gen m0 m (@first_nrec U V) (@rt_next U V) eps hs Hm Hne Hok) as [vs [v [ss [rs' [E1 [E2 [E3 [E4 E5]]]]]]]].
  { intros j ep Hj. destruct (Hf j ep Hj) as [t [rest [-> Hs]]]. exists (rt_nrec t). split; [reflexivity | exact Hs]. }
  exists vs, v, rs'. unfold replay_next_values. rewrite E1. cbn [bind]. auto.
Qed.
End P.
