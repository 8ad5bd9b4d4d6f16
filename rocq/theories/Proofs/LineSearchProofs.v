(** Proofs about the line search. *)
From Coq Require Import QArith Lqa.
From Verif Require Import Base.PyBase Model.LineSearch Spec.LineSearchSpec.
Set Implicit Arguments.
Local Open Scope nat_scope.

Lemma split_spec : forall (ps : list param) flat, Forall well_formed ps -> length flat = length (flatten ps) ->
  exists news, split_and_reshape flat (map (fun p => length (entries p)) ps) (map shape ps) = Ok news /\
    flatten news = flat /\ map shape news = map shape ps /\ Forall well_formed news.
Proof.
  induction ps as [|p ps IH]; intros flat W L.
  - exists []. cbn in *. destruct flat; [auto|discriminate].
  - inversion W as [|? ? Wp Wps]; subst. unfold flatten in L. cbn [flat_map] in L. rewrite app_length in L. cbn [map split_and_reshape]. unfold reshape.
    assert (L1 : length (firstn (length (entries p)) flat) = length (entries p)) by (rewrite firstn_length; lia).
    unfold prod. rewrite L1, Wp, Nat.eqb_refl. cbn [bind]. rewrite <- Wp.
    destruct (IH (skipn (length (entries p)) flat) Wps) as (news & E & F & S & W').
    { rewrite skipn_length. unfold flatten. lia. }
    rewrite E. cbn [bind]. eexists. split; [reflexivity|]. unfold flatten. cbn [flat_map entries map shape].
    unfold flatten in F. rewrite F. split; [apply firstn_skipn|]. split; [rewrite S; reflexivity|].
    constructor; [unfold well_formed; cbn [entries shape]; rewrite L1; exact Wp|exact W'].
Qed.

Lemma replace_spec : forall ps news, map shape news = map shape ps -> replace_params ps news = Ok news.
Proof.
  induction ps as [|p ps IH]; intros [|q news] H; cbn in H; try discriminate; [reflexivity|].
  injection H as H1 H2. cbn. unfold list_nat_eqb. destruct (list_eq_dec Nat.eq_dec (shape p) (shape q)); [|congruence].
  rewrite (IH news H2). cbn. rewrite <- H1. destruct q; reflexivity.
Qed.

Lemma axpy_spec : forall s flat step, length step = length flat -> exists r, axpy flat s step = Ok r /\ length r = length flat /\
  forall i x d, nth_error flat i = Some x -> nth_error step i = Some d -> nth_error r i = Some (x + s * d)%Q.
Proof.
  intros s. induction flat as [|x flat IH]; intros [|d step] L; cbn in L; try discriminate.
  - exists []. split; [reflexivity|]. split; [reflexivity|]. intros [|i] ? ? H; discriminate.
  - destruct (IH step) as (r & E & Lr & N); [lia|]. cbn. rewrite E. cbn. eexists. split; [reflexivity|]. split; [cbn; lia|].
    intros [|i] y e H1 H2; cbn in *; [congruence|apply N; assumption].
Qed.

Lemma nth_ext_some : forall X (a b : list X), length a = length b -> (forall i x, nth_error a i = Some x -> nth_error b i = Some x) -> a = b.
Proof.
  induction a as [|x a IH]; intros [|y b] L H; cbn in L; try discriminate; [reflexivity|].
  pose proof (H 0 x eq_refl) as H0. cbn in H0. injection H0 as ->. f_equal. apply IH; [lia|]. intros i z Hz. exact (H (S i) z Hz).
Qed.

Lemma flatten_concat : forall ps, flatten ps = concat (map entries ps).
Proof. intros. unfold flatten. apply flat_map_concat_map. Qed.

Lemma wf_length : forall ps qs, map shape ps = map shape qs -> Forall well_formed ps -> Forall well_formed qs -> length (flatten ps) = length (flatten qs).
Proof.
  unfold flatten. induction ps as [|p ps IH]; intros [|q qs] H W1 W2; cbn in H; try discriminate; [reflexivity|].
  injection H as H1 H2. inversion W1 as [|? ? A1 A2]; inversion W2 as [|? ? B1 B2]; subst. cbn [flat_map]. rewrite !app_length, (IH qs H2 A2 B2).
  rewrite A1, B1, H1. reflexivity.
Qed.

Lemma flat_inj : forall ps qs, map shape ps = map shape qs -> Forall well_formed ps -> Forall well_formed qs -> flatten ps = flatten qs -> ps = qs.
Proof.
  unfold flatten. induction ps as [|p ps IH]; intros [|q qs] H W1 W2 E; cbn in H; try discriminate; [reflexivity|].
  injection H as H1 H2. inversion W1 as [|? ? A1 A2]; inversion W2 as [|? ? B1 B2]; subst. cbn [flat_map] in E.
  assert (L : length (entries p) = length (entries q)) by (rewrite A1, B1, H1; reflexivity).
  assert (Ep : entries p = entries q).
  { apply (f_equal (firstn (length (entries p)))) in E. rewrite firstn_app, Nat.sub_diag, firstn_O, app_nil_r, firstn_all in E.
    rewrite E, L, firstn_app, Nat.sub_diag, firstn_O, app_nil_r, firstn_all. reflexivity. }
  f_equal; [destruct p, q; cbn in *; congruence|]. apply IH; auto. rewrite Ep in E. apply app_inv_head in E. exact E.
Qed.

Lemma moved_unique : forall ps step s a b, Forall well_formed ps -> length step = length (flatten ps) -> moved ps step s a -> moved ps step s b -> a = b.
Proof.
  intros ps step s a b W L (S1 & W1 & N1) (S2 & W2 & N2). apply flat_inj; auto; [congruence|].
  pose proof (@wf_length _ _ S1 W1 W) as L1. pose proof (@wf_length _ _ S2 W2 W) as L2.
  apply nth_ext_some; [congruence|]. intros i x Hx. rewrite flatten_concat in *.
  assert (Hi : i < length (concat (map entries a))) by (apply nth_error_Some; congruence).
  destruct (nth_error (concat (map entries ps)) i) as [y|] eqn:Ey; [|apply nth_error_None in Ey; rewrite !flatten_concat in L1; lia].
  destruct (nth_error step i) as [d|] eqn:Ed; [|apply nth_error_None in Ed; rewrite !flatten_concat in *; lia].
  rewrite (N1 i y d Ey Ed) in Hx. rewrite (N2 i y d Ey Ed). rewrite <- Hx. reflexivity.
Qed.

Lemma qle_bool_false : forall a b, Qle_bool a b = false <-> ~ (a <= b)%Q.
Proof. intros a b. rewrite <- Qle_bool_iff. destruct (Qle_bool a b); split; intros; congruence. Qed.

Section S.
  Variable evaluate : list param -> fl * fl.
  Variable gain : fl.
  Variable max_kl : Q.
  Variable params : list param.
  Variable step : list Q.
  Hypothesis W : Forall well_formed params.
  Hypothesis L : length step = length (flatten params).
  Notation ok ps := (acceptable gain max_kl (evaluate ps)).

  Lemma decide : forall ps,
    (ok ps /\ exists k, snd (evaluate ps) = Fin k /\ let '(new_gain, new_kl) := evaluate ps in
       negb (is_finite new_gain) = false /\ negb (is_finite new_kl) = false /\ fl_lt (fl_sub new_gain gain) 0 = false /\ fl_gt new_kl max_kl = false)
    \/ (~ ok ps /\ let '(new_gain, new_kl) := evaluate ps in
       (negb (is_finite new_gain) || negb (is_finite new_kl) || fl_lt (fl_sub new_gain gain) 0 || fl_gt new_kl max_kl)%bool = true).
  Proof.
    intros ps. unfold acceptable. destruct (evaluate ps) as [g k].
    destruct g as [g| | |]; try (right; split; [intros (? & ? & E & _); discriminate|reflexivity]).
    destruct k as [k| | |]; try (right; split; [intros (? & ? & E & _); discriminate|reflexivity]).
    cbn [is_finite negb orb fl_gt snd]. destruct (Qle_bool k max_kl) eqn:Ek.
    - apply Qle_bool_iff in Ek. destruct gain as [g0| | |]; cbn [fl_sub fl_lt negb].
      + destruct (Qle_bool 0 (g - g0)) eqn:Eg.
        * apply Qle_bool_iff in Eg. left. split; [exists g, k; repeat split; [exact Ek|lra]|]. exists k. auto.
        * apply qle_bool_false in Eg. right. split; [|reflexivity]. intros (g' & k' & E & _ & H). injection E as <- <-. apply Eg. lra.
      + right. split; [intros (? & ? & _ & _ & [])|reflexivity].
      + left. split; [exists g, k; auto|]. exists k. auto.
      + left. split; [exists g, k; auto|]. exists k. auto.
    - apply qle_bool_false in Ek. right. split; [intros (g' & k' & E & H & _); injection E as <- <-; contradiction|].
      rewrite Bool.orb_true_r. reflexivity.
  Qed.

  Lemma search_spec : forall iters i cur, map shape cur = map shape params ->
    exists out, search evaluate gain max_kl params (flatten params) step iters (half i) cur = Ok out /\
      ((exists j k, i <= j < i + iters /\ moved params step (half j) (o_params out) /\ o_step_size out = half j /\ ok (o_params out) /\
          o_kl out = Some (snd (evaluate (o_params out))) /\ snd (evaluate (o_params out)) = Fin k /\
          forall j' ps, i <= j' < j -> moved params step (half j') ps -> ~ ok ps) \/
       (o_params out = params /\ o_step_size out = 0%Q /\ o_kl out = None /\ forall j' ps, i <= j' < i + iters -> moved params step (half j') ps -> ~ ok ps)).
  Proof.
    induction iters as [|iters IH]; intros i cur Hc.
    - cbn [search]. destruct (@split_spec params (flatten params) W eq_refl) as (old & E & F & S & W').
      rewrite E. cbn [bind]. rewrite replace_spec by congruence. cbn [bind]. eexists. split; [reflexivity|]. right. cbn [o_params o_step_size o_kl].
      split; [apply flat_inj; auto|]. split; [reflexivity|]. split; [reflexivity|]. intros; lia.
    - cbn [search]. destruct (@axpy_spec (half i) (flatten params) step L) as (flat & E & Lf & N). rewrite E. cbn [bind].
      destruct (@split_spec params flat W Lf) as (news & E2 & F & S & W'). rewrite E2. cbn [bind]. rewrite replace_spec by congruence. cbn [bind].
      assert (M : moved params step (half i) news).
      { split; [exact S|]. split; [exact W'|]. intros j x d Hx Hd. rewrite <- !flatten_concat in *. rewrite F. apply N; assumption. }
      destruct (IH (Datatypes.S i) news S) as (out & R & D). cbn [half] in R.
      assert (Retry : ~ ok news -> (exists j k, i <= j < i + Datatypes.S iters /\ moved params step (half j) (o_params out) /\ o_step_size out = half j /\ ok (o_params out) /\
          o_kl out = Some (snd (evaluate (o_params out))) /\ snd (evaluate (o_params out)) = Fin k /\
          forall j' ps, i <= j' < j -> moved params step (half j') ps -> ~ ok ps) \/
       (o_params out = params /\ o_step_size out = 0%Q /\ o_kl out = None /\ forall j' ps, i <= j' < i + Datatypes.S iters -> moved params step (half j') ps -> ~ ok ps)).
      { intros Nok. assert (Ni : forall ps, moved params step (half i) ps -> ~ ok ps).
        { intros ps Hps. rewrite (@moved_unique _ _ _ _ _ W L Hps M). exact Nok. }
        destruct D as [(j & k & Hj & D1 & D2 & D3 & D4 & D5 & D6)|(D1 & D2 & D3 & D4)].
        - left. exists j, k. split; [lia|]. split; [exact D1|]. split; [exact D2|]. split; [exact D3|]. split; [exact D4|]. split; [exact D5|].
          intros j' ps Hj' Hm. destruct (Nat.eq_dec j' i) as [->|]; [apply Ni, Hm|]. apply (D6 j'); [lia|exact Hm].
        - right. split; [exact D1|]. split; [exact D2|]. split; [exact D3|]. intros j' ps Hj' Hm. destruct (Nat.eq_dec j' i) as [->|]; [apply Ni, Hm|].
          apply (D4 j'); [lia|exact Hm]. }
      destruct (decide news) as [[Ok1 (k & Ek & H)]|[Nok H]].
      + destruct (evaluate news) as [g kl] eqn:Ev. destruct H as (H1 & H2 & H3 & H4). rewrite H1, H2, H3, H4. eexists. split; [reflexivity|].
        left. exists i, k. cbn [o_params o_step_size o_kl]. rewrite Ev. cbn [snd] in *. split; [lia|]. split; [exact M|]. split; [reflexivity|].
        split; [exact Ok1|]. split; [reflexivity|]. split; [exact Ek|]. intros; lia.
      + exists out. destruct (evaluate news) as [g kl] eqn:Ev. split; [|apply Retry; exact Nok].
        destruct (negb (is_finite g)); [exact R|]. destruct (negb (is_finite kl)); [exact R|]. destruct (fl_lt (fl_sub g gain) 0); [exact R|].
        destruct (fl_gt kl max_kl); [exact R|discriminate].
  Qed.

  Theorem line_search_spec : forall max_backtrack, exists out, line_search evaluate gain max_kl max_backtrack params step = Ok out /\
    ((exists i, i <= max_backtrack /\ moved params step (half i) (o_params out) /\ ok (o_params out) /\
        o_step_size out = half i /\ o_kl out = Some (snd (evaluate (o_params out))) /\
        forall j ps, j < i -> moved params step (half j) ps -> ~ ok ps) \/
     (o_params out = params /\ o_step_size out = 0%Q /\ o_kl out = None /\
        forall j ps, j <= max_backtrack -> moved params step (half j) ps -> ~ ok ps)).
  Proof.
    intros mb. unfold line_search. destruct (@search_spec (mb + 1) 0 params eq_refl) as (out & R & D). exists out. split; [exact R|].
    destruct D as [(j & k & Hj & D1 & D2 & D3 & D4 & D5 & D6)|(D1 & D2 & D3 & D4)].
    - left. exists j. split; [lia|]. split; [exact D1|]. split; [exact D3|]. split; [exact D2|]. split; [exact D4|]. intros j' ps Hj' Hm. apply (D6 j'); [lia|exact Hm].
    - right. split; [exact D1|]. split; [exact D2|]. split; [exact D3|]. intros j' ps Hj' Hm. apply (D4 j'); [lia|exact Hm].
  Qed.

  (** Each candidate exists and is unique. *)
  Lemma moved_exists : forall s, exists ps, moved params step s ps.
  Proof.
    intros s. destruct (@axpy_spec s (flatten params) step L) as (flat & E & Lf & N).
    destruct (@split_spec params flat W Lf) as (news & E2 & F & S & W'). exists news.
    split; [exact S|]. split; [exact W'|]. intros j x d Hx Hd. rewrite <- !flatten_concat in *. rewrite F. apply N; assumption.
  Qed.
End S.
