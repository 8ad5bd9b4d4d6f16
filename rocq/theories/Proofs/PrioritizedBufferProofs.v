(** PrioritizedBuffer used as documented refines a list of (item, priority). *)
From Coq Require Import QArith Lqa.
From Verif Require Import Base.ListFacts Model.Num Model.Random Model.TreeQueue Model.PrioritizedBuffer
     Spec.RandomSpec Spec.PrioritySpec Spec.PrioritizedBufferSpec
     Proofs.RandomProofs Proofs.TreeQueueProofs Proofs.PriorityProofs.
Set Implicit Arguments.
Open Scope Q_scope.

Lemma drain_sum l : forall q, sum_rep q l -> @drain Q (op_sum QNum) (length l) q = map Some l.
Proof.
  induction l as [|x l IH]; intros q Hr; cbn [length drain map]; auto.
  destruct (sum_popleft Hr) as (q' & -> & Hr'). f_equal. auto.
Qed.
Lemma drain_min l : forall q, min_rep q l -> @drain Q (op_min QNum) (length l) q = map Some l.
Proof.
  induction l as [|x l IH]; intros q Hr; cbn [length drain map]; auto.
  destruct (min_popleft Hr) as (q' & -> & Hr'). f_equal. auto.
Qed.

Lemma min_set q l i v : min_rep q l -> (i < length l)%nat ->
  exists q', @tq_set Q omin q (Z.of_nat i) v = Ok q' /\ min_rep q' (upd l i v).
Proof.
  intros Hr Hi. pose proof (tq_set_spec omin AggMin1 AggMin_op1 AggMin_op2 (Z.of_nat i) v Hr) as H.
  change (nV QNum) with Q in *.
  destruct ((0 <=? Z.of_nat i)%Z && (Z.of_nat i <? Z.of_nat (length l))%Z) eqn:E; [|lia].
  rewrite Nat2Z.id in H. exact H.
Qed.
Lemma sum_set q l i v : sum_rep q l -> (i < length l)%nat ->
  exists q', @tq_set Q osum q (Z.of_nat i) v = Ok q' /\ sum_rep q' (upd l i v).
Proof.
  intros Hr Hi. pose proof (tq_set_spec osum AggSum1 AggSum_op1 AggSum_op2 (Z.of_nat i) v Hr) as H.
  change (nV QNum) with Q in *.
  destruct ((0 <=? Z.of_nat i)%Z && (Z.of_nat i <? Z.of_nat (length l))%Z) eqn:E; [|lia].
  rewrite Nat2Z.id in H. exact H.
Qed.

Section P.
  Context {X : Type}.
  Notation buf := (pb QNum X).

  (** Low-level representation: items [xs], priorities [ps], weights [ws]. *)
  Definition rep (b : buf) (xs : list X) (ps ws : list Q) : Prop :=
    pb_data b = xs /\ min_rep (pb_mins b) ps /\ sum_rep (pb_sums b) ws /\
    length ps = length xs /\ length ws = length xs.

  Lemma rep_weights b xs ps ws : rep b xs ps ws -> weights b = map Some ws.
  Proof. intros (H1 & H2 & H3 & H4 & H5). unfold weights. rewrite H1, <- H5. now apply drain_sum. Qed.
  Lemma rep_priorities b xs ps ws : rep b xs ps ws -> priorities b = map Some ps.
  Proof. intros (H1 & H2 & H3 & H4 & H5). unfold priorities. rewrite H1, <- H4. now apply drain_min. Qed.

  Lemma pb_popleft_rep b x xs p ps w ws : rep b (x :: xs) (p :: ps) (w :: ws) ->
    exists b', pb_popleft b = Ok (x, b') /\ rep b' xs ps ws /\ pb_cap b' = pb_cap b /\ pb_max b' = pb_max b /\
      pb_wait b' = pb_wait b /\ pb_flag b' = pb_flag b /\ pb_sampled b' = pb_sampled b.
  Proof.
    intros (H1 & H2 & H3 & H4 & H5). unfold pb_popleft. rewrite H1.
    destruct (sum_popleft H3) as (s & Hs & Hrs). destruct (min_popleft H2) as (m & Hm & Hrm).
    change (nV QNum) with Q. rewrite Hs. cbn [bind]. rewrite Hm. cbn [bind].
    eexists; split; [reflexivity|]. cbn. repeat split; auto; try apply Hrm; try apply Hrs; cbn in *; lia.
  Qed.

  Lemma pb_append_rep b xs ps ws x po : rep b xs ps ws -> pb_cap b <> Some 0%nat ->
    let cut {A} (l : list A) := match pb_cap b with
      | Some c => if length xs =? c then tl l else l | None => l end in
    let p := match po with Some p => p | None => pb_max b end in
    exists b', pb_append b x po = Ok b' /\
      rep b' (cut xs ++ [x]) (cut ps ++ [p]) (cut ws ++ [p]) /\ pb_cap b' = pb_cap b /\ pb_max b' = pb_max b /\
      pb_wait b' = pb_wait b /\ pb_flag b' = pb_flag b /\ pb_sampled b' = pb_sampled b.
  Proof.
    intros Hr Hc cut p. unfold pb_append.
    assert (H : exists b1, match pb_cap b with
              | Some c => if length (pb_data b) =? c then let! (_, b') := pb_popleft b in Ok b' else Ok b
              | None => Ok b end = Ok b1 /\ rep b1 (cut _ xs) (cut _ ps) (cut _ ws) /\
              pb_cap b1 = pb_cap b /\ pb_max b1 = pb_max b /\
              pb_wait b1 = pb_wait b /\ pb_flag b1 = pb_flag b /\ pb_sampled b1 = pb_sampled b).
    { pose proof Hr as (H1 & _ & _ & H4 & H5). unfold cut.
      destruct (pb_cap b) as [c|] eqn:Ec; [|exists b; auto 10].
      rewrite H1. destruct (length xs =? c) eqn:El; [|exists b; auto 10].
      apply Nat.eqb_eq in El. destruct xs as [|x0 xs]; [cbn in El; subst; congruence|].
      destruct ps as [|p0 ps]; [discriminate|]. destruct ws as [|w0 ws]; [discriminate|].
      destruct (pb_popleft_rep Hr) as (b' & -> & Hr' & Hrest). cbn [bind tl].
      exists b'. rewrite Ec in Hrest. auto. }
    destruct H as (b1 & -> & (H1 & H2 & H3 & H4 & H5) & Hcap & Hmax & Hwt & Hfl & Hsa). cbn [bind]. rewrite Hmax. fold p.
    destruct (sum_append p H3) as (s & Hs & Hrs). destruct (min_append p H2) as (m & Hm & Hrm).
    change (nV QNum) with Q. fold p. rewrite Hs. cbn [bind]. rewrite Hm. cbn [bind].
    eexists; split; [reflexivity|]. cbn [pb_cap pb_max pb_wait pb_flag pb_sampled]. rewrite Hcap.
    split; [|auto]. unfold rep; cbn [pb_data pb_mins pb_sums]. rewrite H1.
    split; [auto|]. split; [auto|]. split; [auto|].
    rewrite !(app_length (cut _ _)). change (length [x]) with 1%nat. change (@length (nV QNum) [p]) with 1%nat. change (@length Q [p]) with 1%nat. change (nV QNum) with Q in *. split; lia.
  Qed.

  (** The value list of [probs_of] when every value is present. *)
  Lemma probs_of_some ur total len (vs : list Q) :
    probs_of QNum ur total len (map Some vs) =
    Ok (map (fun p => ur / inject_Z (Z.of_nat len) + (1 - ur) * p / total) vs).
  Proof. induction vs as [|v vs IH]; cbn [map probs_of]; auto. rewrite IH. reflexivity. Qed.

  Lemma gets_spec (l : list X) ixs : (forall i, In i ixs -> (i < length l)%nat) ->
    exists xs, gets l (map Z.of_nat ixs) = Ok xs /\ Forall2 (fun i x => nth_error l i = Some x) ixs xs.
  Proof.
    induction ixs as [|i t IH]; intros H; cbn [map gets].
    - exists []. auto.
    - unfold py_get, py_index. specialize (H i (or_introl eq_refl)) as Hi.
      destruct (0 <=? Z.of_nat i)%Z eqn:E1; [|lia].
      destruct (Z.of_nat i <? Z.of_nat (length l))%Z eqn:E2; [|lia]. rewrite Nat2Z.id.
      destruct (nth_error l i) as [x|] eqn:Ex; [|apply nth_error_None in Ex; lia]. cbn [bind].
      destruct IH as (xs & -> & HF). { intros j Hj; apply H; right; auto. }
      cbn [bind]. exists (x :: xs). auto.
  Qed.

  Lemma pick_vals (l : list Q) ixs : (forall i, In i ixs -> (i < length l)%nat) ->
    map (fun i => nth_error l i) ixs = map Some (map (fun i => nth i l 0) ixs).
  Proof. intros H. rewrite map_map. apply map_ext_in. intros i Hi.
         apply nth_error_nth'. auto. Qed.

  Lemma positives_all l : (forall x, In x l -> 0 < x) -> positives l = length l.
  Proof.
    unfold positives. induction l as [|h t IH]; intros H; cbn [filter length]; auto.
    specialize (H h (or_introl eq_refl)) as Hh.
    destruct (Qle_bool h 0) eqn:E; [apply Qle_bool_iff in E; lra|]. cbn [negb length]. f_equal.
    apply IH. intros; apply H; right; auto.
  Qed.

  Lemma positives_zero_at l ixs : (forall x, In x l -> 0 < x) -> NoDup ixs -> (forall i, In i ixs -> (i < length l)%nat) ->
    (positives (zero_at l ixs) + length ixs)%nat = length l.
  Proof.
    intros Hp Hnd Hi. rewrite <- (positives_all l Hp).
    assert (Hgen : forall ixs w, NoDup ixs -> (forall i, In i ixs -> exists x, nth_error w i = Some x /\ 0 < x) ->
                     (positives (zero_at w ixs) + length ixs)%nat = positives w).
    { clear. unfold zero_at. induction ixs as [|i t IH]; intros w Hnd Hi; cbn [fold_left length]; [lia|].
      inversion Hnd as [|? ? Hni Hnd']; subst.
      destruct (Hi i (or_introl eq_refl)) as (x & Hx & Hx0).
      pose proof (positives_upd w i Hx Hx0) as Hu.
      assert (HI : (positives (fold_left (fun w i => upd w i 0%Q) t (upd w i 0%Q)) + length t)%nat = positives (upd w i 0%Q));
        [|lia].
      apply IH; auto.
      - intros j Hj. destruct (Hi j (or_intror Hj)) as (y & Hy & Hy0). exists y. split; auto.
        rewrite nth_error_upd_other; auto. intros ->; auto. }
    apply Hgen; auto. intros i Hin. destruct (nth_error l i) as [x|] eqn:E.
    - exists x. split; auto. apply Hp. eapply nth_error_In; eauto.
    - apply nth_error_None in E. specialize (Hi i Hin). lia.
  Qed.

  Lemma nonneg_zero_at l ixs : (forall x, In x l -> 0 <= x) -> forall x, In x (zero_at l ixs) -> 0 <= x.
  Proof. unfold zero_at. revert l; induction ixs as [|i t IH]; intros l H; cbn [fold_left]; auto.
         apply IH. apply nonneg_upd. auto. Qed.

  (** One sampling call on a settled buffer with positive priorities. *)
  Lemma pb_sample_rep b xs ps n ur d :
    rep b xs ps ps -> xs <> [] -> (forall p, In p ps -> 0 < p) ->
    draws_ok (length xs) n ur d -> (pb_wait b = true -> pb_flag b = false) ->
    let nu := if Qltb 0 ur then d_nuni d else 0%nat in
    exists ixs ys probs mp b' w',
      pb_sample b n ur d = Ok (ys, probs, mp, b') /\
      length ixs = n /\
      (pb_wait b = true -> NoDup ixs) /\
      (forall i, In i ixs -> (i < length xs)%nat) /\
      (if Qltb 0 ur then sample_n_k (d_fuel d) (d_rng d) (Z.of_nat (length xs)) (Z.of_nat nu) else Ok [])
        = Ok (map Z.of_nat (firstn nu ixs)) /\
      picks (if pb_wait b then zero_at ps (firstn nu ixs) else ps) (map (d_us d) (seq 0 (n - nu))) (skipn nu ixs) w' /\
      Forall2 (fun i x => nth_error xs i = Some x) ixs ys /\
      Forall2 (fun i pr => exists p, nth_error ps i = Some p /\ pr == sel_prob ur ps p) ixs probs /\
      (exists m, is_minQ ps m /\ mp == sel_prob ur ps m) /\
      rep b' xs ps (if pb_wait b then zero_at ps ixs else ps) /\
      pb_cap b' = pb_cap b /\ pb_max b' = pb_max b /\ pb_wait b' = pb_wait b /\ pb_flag b' = true /\
      pb_sampled b' = Some (map Z.of_nat ixs).
  Proof.
    intros (H1 & H2 & H3 & H4 & _) Hne Hpos (Hur & Hnu & Hn & Hus & Hrng & (r & Hr)) Hflag nu.
    unfold pb_sample. 
    assert (Has : negb (pb_wait b) || negb (pb_flag b) = true).
    { destruct (pb_wait b); cbn; auto. rewrite Hflag; auto. }
    rewrite Has. unfold pb_sample_indices.
    destruct (stq_sum_spec H3) as (total & Htot & Hteq).
    assert (Hpsne : ps <> []) by (intros ->; destruct xs; cbn in *; congruence || lia).
    assert (Hmin : exists mv, @tq_value Q (pb_mins b) = Ok (Some mv) /\ is_minQ ps mv).
    { pose proof (min_value H2) as Hv. destruct ps; [congruence|]. exact Hv. }
    destruct Hmin as (mv & Hmv & Hismin).
    assert (Hnn : forall p, In p ps -> 0 <= p) by (intros p Hp; specialize (Hpos p Hp); lra).
    assert (Htpos : 0 < sumQ ps).
    { apply positives_sum; auto. rewrite positives_all by auto. destruct ps; [congruence|]; cbn; lia. }
    change (nV QNum) with Q. rewrite Htot. cbn [bind]. rewrite Hmv. cbn [bind].
    replace (nis0 QNum total) with false.
    2:{ symmetry. cbn. apply not_true_is_false. intros E. apply Qeq_bool_iff in E. lra. }
    rewrite H1. 
    assert (Hlen0 : ~ inject_Z (Z.of_nat (length xs)) == 0).
    { intros E. apply (f_equal (fun z => z)) in E. unfold Qeq in E. cbn in E.
      destruct xs; [congruence|]. cbn [length] in E. lia. }
    (* the uniform part *)
    assert (HU : exists uix s1 mp, (if nltb QNum (nzero QNum) ur then
          let! uix := sample_n_k (d_fuel d) (d_rng d) (tq_len (pb_sums b)) (Z.of_nat (d_nuni d)) in
          let! (ixs, vals, s) := stq_uniform_sample QNum (pb_sums b) uix (pb_wait b) in
          Ok (ixs, vals, s, (n - d_nuni d)%nat,
              nadd QNum (ndiv QNum ur (nofnat QNum (length xs))) (nmul QNum (nsub QNum (none_ QNum) ur) (ndiv QNum mv total)))
        else Ok ([], [], pb_sums b, n, ndiv QNum mv total))
        = Ok (map Z.of_nat uix, map (fun i => nth_error ps i) uix, s1, (n - nu)%nat, mp) /\
        length uix = nu /\ NoDup uix /\ (forall i, In i uix -> (i < length xs)%nat) /\
        (if Qltb 0 ur then sample_n_k (d_fuel d) (d_rng d) (Z.of_nat (length xs)) (Z.of_nat nu) else Ok [])
          = Ok (map Z.of_nat uix) /\
        sum_rep s1 (if pb_wait b then zero_at ps uix else ps) /\ mp == sel_prob ur ps mv).
    { change (nltb QNum (nzero QNum) ur) with (Qltb 0 ur). unfold nu.
      pose proof (Qltb_spec 0 ur) as Hlt. destruct (Qltb 0 ur).
      - pose proof (proj1 H3) as Hlen. change (nV QNum) with Q in *. rewrite Hlen, H4, Hr. cbn [bind].
        pose proof (@sample_n_k_sound (d_fuel d) (d_rng d) _ _ Hrng) as Hs. rewrite Hr in Hs.
        destruct Hs as (_ & Hrl & Hrnd & Hrr).
        set (uix := map Z.to_nat r).
        assert (Er : r = map Z.of_nat uix).
        { unfold uix. rewrite map_map. rewrite <- (map_id r) at 1. apply map_ext_in. intros z Hz.
          specialize (Hrr z Hz). lia. }
        assert (Hui : forall i, In i uix -> (i < length xs)%nat).
        { intros i Hi. apply in_map_iff in Hi as (z & <- & Hz). specialize (Hrr z Hz). lia. }
        assert (Hund : NoDup uix).
        { apply (NoDup_map_inv Z.of_nat). rewrite <- Er. auto. }
        rewrite Er.
        destruct (@uniform_sample_spec (pb_sums b) ps uix (pb_wait b) H3 Hund) as (s1 & Hs1 & Hrs1).
        { intros i Hi. rewrite H4. auto. }
        change (nV QNum) with Q in *. rewrite Hs1. cbn [bind].
        exists uix, s1. eexists. split; [reflexivity|].
        split. { unfold uix. rewrite map_length. lia. }
        split; [auto|]. split; [auto|]. split; [congruence|]. split; [auto|].
        cbn. unfold sel_prob. rewrite H4, Hteq. field. split; [lra|auto].
      - exists [], (pb_sums b). eexists. split; [cbn [map]; rewrite Nat.sub_0_r; reflexivity|].
        split; [auto|]. split; [constructor|]. split; [intros i []|]. split; [auto|].
        split. { destruct (pb_wait b); auto. }
        assert (ur == 0) as Hu0 by lra. cbn. unfold sel_prob. rewrite H4, Hteq, Hu0. field. split; [lra|auto]. }
    destruct HU as (uix & s1 & mp & HUeq & Hul & Hund & Hui & Husam & Hrs1 & Hmp).
    change (nV QNum) with Q in *. rewrite HUeq. cbn [bind].
    set (w1 := if pb_wait b then zero_at ps uix else ps) in *.
    assert (Hw1nn : forall x, In x w1 -> 0 <= x).
    { unfold w1. destruct (pb_wait b); auto. apply nonneg_zero_at. auto. }
    assert (Hnu' : (nu <= n)%nat) by (unfold nu; destruct (Qltb 0 ur); lia).
    assert (Hui' : forall i, In i uix -> (i < length ps)%nat) by (intros; rewrite H4; auto).
    destruct (@prioritized_sample_spec s1 w1 (take_us QNum (d_us d) (n - nu)) (pb_wait b)) as (pix & s2 & Hps & Hpk & Hpl & Hpnd & Hppos & Hrs2); auto.
    { unfold take_us. rewrite map_length, seq_length. unfold w1. destruct (pb_wait b).
      - pose proof (@positives_zero_at ps uix Hpos Hund Hui'). lia.
      - rewrite positives_all by auto. lia. }
    { intros u Hu. unfold take_us in Hu. apply in_map_iff in Hu as (k & <- & _). apply Hus. }
    change (nV QNum) with Q in *. rewrite Hps. cbn [bind].
    unfold take_us in Hpl. rewrite map_length, seq_length in Hpl.
    assert (Hw1len : length w1 = length xs).
    { unfold w1. destruct (pb_wait b); rewrite ?zero_at_length; auto. }
    assert (Hpi : forall i, In i pix -> (i < length xs)%nat).
    { intros i Hi. destruct (Hppos i Hi) as (x & Hx & _). rewrite <- Hw1len. apply nth_error_Some. congruence. }
    assert (Hdisj : pb_wait b = true -> forall i, In i pix -> ~ In i uix).
    { intros Hw i Hi Hin. destruct (Hppos i Hi) as (x & Hx & Hx0). unfold w1 in Hx. rewrite Hw in Hx.
      rewrite zero_at_same in Hx; auto. injection Hx as <-. lra. }
    assert (Hvals : map (fun i => nth_error ps i) uix ++ map (fun i => nth_error w1 i) pix
                    = map Some (map (fun i => nth i ps 0) (uix ++ pix))).
    { rewrite map_app, map_app. f_equal.
      - apply pick_vals. auto.
      - rewrite <- pick_vals by (intros i Hi; rewrite H4; auto). apply map_ext_in. intros i Hi. unfold w1.
        destruct (pb_wait b); auto. apply zero_at_other. apply Hdisj; auto. }
    rewrite Hvals, probs_of_some. cbn [bind].
    assert (Hall : forall i, In i (uix ++ pix) -> (i < length xs)%nat).
    { intros i Hi. apply in_app_or in Hi as [Hi|Hi]; auto. }
    rewrite <- map_app. destruct (gets_spec xs (uix ++ pix) Hall) as (ys & -> & HF). cbn [bind].
    assert (Hfirst : firstn nu (uix ++ pix) = uix).
    { rewrite firstn_app, Hul, Nat.sub_diag, firstn_O, app_nil_r. apply firstn_all2. lia. }
    assert (Hskip : skipn nu (uix ++ pix) = pix).
    { rewrite skipn_app, Hul, Nat.sub_diag. rewrite skipn_all2 by lia. reflexivity. }
    exists (uix ++ pix), ys. do 4 eexists. rewrite Hfirst, Hskip.
    split; [reflexivity|]. cbn [pb_cap pb_max pb_wait pb_flag pb_sampled].
    split. { rewrite app_length. lia. }
    split. { intros Hw. specialize (Hdisj Hw). clear - Hund Hpnd Hdisj.
      induction uix as [|a uix IH]; cbn [app]; auto. inversion Hund; subst. constructor.
      - rewrite in_app_iff. intros [C|C]; auto. apply (Hdisj a C). left; auto.
      - apply IH; auto. intros i Hi C. apply (Hdisj i Hi). right; auto. }
    split; [auto|]. split; [auto|]. split; [exact Hpk|]. split; [auto|].
    split. { clear - Hall H4 Hteq. induction (uix ++ pix) as [|i t IH]; cbn [map]; constructor.
      - specialize (Hall i (or_introl eq_refl)). exists (nth i ps 0). split.
        + apply nth_error_nth'. lia.
        + unfold sel_prob. rewrite H4, Hteq. reflexivity.
      - apply IH. intros; apply Hall; right; auto. }
    split; [eauto|]. split; [|auto].
    unfold rep; cbn [pb_data pb_mins pb_sums]. split; [auto|]. split; [auto|]. split.
    - destruct (pb_wait b) eqn:Ew; unfold w1 in *.
      + unfold zero_at in *. rewrite fold_left_app. exact Hrs2.
      + exact Hrs2.
    - split; [auto|]. destruct (pb_wait b); rewrite ?zero_at_length; auto.
  Qed.

  (** The updating loop. *)
  Lemma set_loop_rep ips : forall b xs ps ws, rep b xs ps ws ->
    (forall i p, In (i, p) ips -> (i < length xs)%nat) ->
    let go (l : list Q) := fold_left (fun l (ip : nat * Q) => upd l (fst ip) (snd ip)) ips l in
    exists b', set_loop b (map (fun ip => (Z.of_nat (fst ip), snd ip)) ips) = Ok b' /\
      rep b' xs (go ps) (go ws) /\ pb_cap b' = pb_cap b /\ pb_max b' = fold_left maxQ (map snd ips) (pb_max b) /\
      pb_wait b' = pb_wait b /\ pb_flag b' = pb_flag b /\ pb_sampled b' = pb_sampled b.
  Proof.
    induction ips as [|[i p] ips IH]; intros b xs ps ws Hr Hi; cbn [map set_loop fold_left fst snd].
    - exists b. auto 10.
    - destruct Hr as (H1 & H2 & H3 & H4 & H5).
      assert (Hil : (i < length xs)%nat) by (eapply Hi; left; reflexivity).
      destruct (@sum_set (pb_sums b) ws i p H3 ltac:(lia)) as (s & Hs & Hrs).
      destruct (@min_set (pb_mins b) ps i p H2 ltac:(lia)) as (m & Hm & Hrm).
      change (nV QNum) with Q in *. rewrite Hs. cbn [bind]. rewrite Hm. cbn [bind].
      match goal with |- context [set_loop ?b1 _] => set (bb := b1) end.
      destruct (IH bb xs (upd ps i p) (upd ws i p)) as (b' & -> & Hr' & Hc & Hmx & Hw & Hf & Hsa).
      { unfold rep, bb; cbn. rewrite !upd_length. auto. }
      { intros j q Hj. eapply Hi; right; eauto. }
      exists b'. cbn [pb_cap pb_max pb_wait pb_flag pb_sampled bb] in *.
      split; [auto|]. split; [auto|]. split; [auto|]. split; [|auto]. exact Hmx.
  Qed.

  Lemma go_settled ips : forall l w : list Q, length w = length l ->
    (forall j, (j < length l)%nat -> ~ In j (map fst ips) -> nth_error w j = nth_error l j) ->
    fold_left (fun l (ip : nat * Q) => upd l (fst ip) (snd ip)) ips w =
    fold_left (fun l (ip : nat * Q) => upd l (fst ip) (snd ip)) ips l.
  Proof.
    induction ips as [|[i p] ips IH]; intros l w Hl H; cbn [fold_left map fst snd] in *.
    - apply nth_error_ext; auto. intros j Hj. apply H; [lia|]. intros [].
    - apply IH; [now rewrite !upd_length|]. rewrite upd_length. intros j Hj Hn.
      destruct (Nat.eq_dec i j) as [->|Hne].
      + rewrite !nth_error_upd_same; auto; lia.
      + rewrite !nth_error_upd_other by auto. apply H; auto. simpl. tauto.
  Qed.

  Lemma combine_map_l {A B C} (f : A -> B) (l : list A) (l' : list C) :
    combine (map f l) l' = map (fun ip => (f (fst ip), snd ip)) (combine l l').
  Proof. revert l'; induction l as [|a l IH]; intros [|c l']; cbn [map combine]; auto. now rewrite IH. Qed.
  Lemma map_fst_combine {A B} (l : list A) (l' : list B) : length l = length l' -> map fst (combine l l') = l.
  Proof. revert l'; induction l as [|a l IH]; intros [|c l']; cbn; intros H; auto; try lia. f_equal. apply IH. lia. Qed.
  Lemma map_snd_combine {A B} (l : list A) (l' : list B) : length l = length l' -> map snd (combine l l') = l'.
  Proof. revert l'; induction l as [|a l IH]; intros [|c l']; cbn; intros H; auto; try lia. f_equal. apply IH. lia. Qed.

  Lemma map_fst_set_pris ips : forall l : list (X * Q), map fst (set_pris l ips) = map fst l.
  Proof.
    unfold set_pris. induction ips as [|[i p] ips IH]; intros l; cbn [fold_left fst snd]; auto.
    rewrite IH. destruct (nth_error l i) as [[x q]|] eqn:E; auto.
    rewrite map_upd. cbn [fst]. apply upd_self. rewrite nth_error_map, E. reflexivity.
  Qed.
  Lemma map_snd_set_pris ips : forall l : list (X * Q),
    (forall i p, In (i, p) ips -> (i < length l)%nat) ->
    map snd (set_pris l ips) = fold_left (fun l (ip : nat * Q) => upd l (fst ip) (snd ip)) ips (map snd l).
  Proof.
    unfold set_pris. induction ips as [|[i p] ips IH]; intros l Hi; cbn [fold_left fst snd]; auto.
    destruct (nth_error l i) as [[x q]|] eqn:E.
    - rewrite IH. + now rewrite map_upd. + intros j r Hj. rewrite upd_length. eapply Hi; right; eauto.
    - apply nth_error_None in E. specialize (Hi i p (or_introl eq_refl)). lia.
  Qed.

  (** Representation of a settled buffer. *)
  Definition settled (cap : option nat) (b : buf) (l : list (X * Q)) (m : Q) : Prop :=
    rep b (map fst l) (map snd l) (map snd l) /\ pb_cap b = cap /\ pb_max b = m /\
    (pb_wait b = true -> pb_flag b = false) /\
    (forall p, In p (map snd l) -> 0 < p) /\ 0 < m /\
    match cap with Some c => (length l <= c)%nat | None => True end.

  Lemma settled_stores cap b l m : settled cap b l m -> stores b l m.
  Proof.
    intros (Hr & _ & Hm & _). unfold stores. rewrite (rep_weights Hr), (rep_priorities Hr), !map_map.
    destruct Hr as (H1 & _). auto.
  Qed.

  Lemma keep_cut {A} (cap : option nat) (l : list A) (x : A) n :
    length l = n -> match cap with Some c => (n <= c)%nat /\ c <> 0%nat | None => True end ->
    (match cap with Some c => if n =? c then tl l else l | None => l end) ++ [x] =
    match cap with None => l ++ [x] | Some c => skipn (length (l ++ [x]) - c) (l ++ [x]) end.
  Proof.
    intros Hl Hc. destruct cap as [c|]; auto. destruct Hc as [Hc Hc0]. rewrite app_length. cbn [length].
    destruct (n =? c) eqn:E.
    - apply Nat.eqb_eq in E. replace (length l + 1 - c)%nat with 1%nat by lia.
      destruct l; cbn in *; [lia|]. reflexivity.
    - apply Nat.eqb_neq in E. replace (length l + 1 - c)%nat with 0%nat by lia. reflexivity.
  Qed.

  Lemma fold_max_pos ps m : 0 < m -> (forall p, In p ps -> 0 < p) -> 0 < fold_left maxQ ps m.
  Proof.
    revert m; induction ps as [|p ps IH]; intros m Hm Hp; cbn [fold_left]; auto.
    apply IH; [|intros; apply Hp; right; auto]. unfold maxQ. destruct (Qltb m p); auto. apply Hp; left; auto.
  Qed.

  Lemma in_fold_upd ips : forall l x, In x (fold_left (fun l (ip : nat * Q) => upd l (fst ip) (snd ip)) ips l) ->
    In x l \/ In x (map snd ips).
  Proof.
    induction ips as [|[i p] ips IH]; intros l x H; cbn [fold_left map snd] in *; auto.
    apply IH in H as [H|H]; [|right; right; auto]. apply in_upd in H as [->|H]; auto. right; left; auto.
  Qed.

  Lemma combine_in_l {A B} (l : list A) (l' : list B) i p : In (i, p) (combine l l') -> In i l.
  Proof. apply in_combine_l. Qed.

  Lemma exec_step cap b l m u : settled cap b l m -> use_pre cap l u -> pb_wait b = true ->
    exists o b' l' m', use_exec b u = Ok (o, b') /\ use_step cap (l, m) u o (l', m') /\
      settled cap b' l' m' /\ pb_wait b' = true.
  Proof.
    intros (Hr & Hcap & Hmax & Hfl & Hpos & Hm & Hlc) Hpre Hwait. destruct u as [x po| |n ur d ps]; cbn [use_exec use_pre] in *.
    - destruct Hpre as [Hp Hc0].
      assert (Hcb : pb_cap b <> Some 0%nat) by congruence.
      destruct (pb_append_rep x po Hr Hcb) as (b' & -> & Hr' & Hc' & Hm' & Hw' & Hf' & Hs'). cbn [bind].
      exists OUnit, b'. do 2 eexists. split; [reflexivity|]. split; [constructor|].
      set (p := match po with Some p => p | None => m end).
      assert (Ekeep : keep cap (l ++ [(x, p)]) = match cap with Some c => if length l =? c then tl l else l | None => l end ++ [(x, p)]).
      { unfold keep. symmetry. apply (keep_cut cap l (x, p) eq_refl). destruct cap; auto; split; auto; congruence. }
      split; [|congruence].
      unfold settled. rewrite Ekeep.
      assert (Hmf : map fst (match cap with Some c => if length l =? c then tl l else l | None => l end ++ [(x, p)]) =
               (match pb_cap b with Some c => if length (map fst l) =? c then tl (map fst l) else map fst l | None => map fst l end) ++ [x]).
      { rewrite Hcap, map_app, map_length. f_equal. destruct cap as [c|]; auto. destruct (length l =? c); auto. destruct l; auto. }
      assert (Hms : map snd (match cap with Some c => if length l =? c then tl l else l | None => l end ++ [(x, p)]) =
               (match pb_cap b with Some c => if length (map fst l) =? c then tl (map snd l) else map snd l | None => map snd l end) ++ [p]).
      { rewrite Hcap, map_app, map_length. f_equal. destruct cap as [c|]; auto. destruct (length l =? c); auto. destruct l; auto. }
      rewrite Hmf, Hms. subst p. rewrite Hmax in Hr'. split; [exact Hr'|]. split; [congruence|]. split; [congruence|].
      split; [rewrite Hf'; auto|]. split; [|split; [auto|]].
      + intros p Hin. apply in_app_or in Hin as [Hin|[<-|[]]].
        * apply Hpos. destruct (pb_cap b); auto. destruct (length (map fst l) =? n); auto.
          destruct (map snd l); cbn in *; auto.
        * destruct po; auto.
      + destruct cap as [c|]; auto. rewrite <- Ekeep. unfold keep. rewrite skipn_length. lia.
    - destruct l as [|[x p] l]; [congruence|]. cbn [map fst snd] in Hr.
      destruct (pb_popleft_rep Hr) as (b' & -> & Hr' & Hc' & Hm' & Hw' & Hf' & Hs'). cbn [bind].
      exists (OItem x), b', l, m. split; [reflexivity|]. split; [constructor|]. split; [|congruence].
      unfold settled. split; [auto|]. split; [congruence|]. split; [congruence|]. split; [rewrite Hf'; auto|].
      split; [intros q Hq; apply Hpos; right; auto|]. split; [auto|]. destruct cap; auto. cbn in Hlc. lia.
    - destruct Hpre as (Hne & Hd & Hpl & Hpp).
      assert (Hne' : map fst l <> []) by (destruct l; [congruence|discriminate]).
      rewrite <- (map_length fst l) in Hd.
      destruct (@pb_sample_rep b (map fst l) (map snd l) n ur d Hr Hne' Hpos Hd Hfl)
        as (ixs & ys & probs & mp & b1 & w' & -> & Hil & Hnd & Hir & Hsam & Hpk & HF1 & HF2 & Hmin & Hr1 & Hc1 & Hm1 & Hw1 & Hf1 & Hs1).
      cbn [bind]. rewrite Hwait in *. specialize (Hnd eq_refl).
      unfold pb_set_last. rewrite Hf1, orb_true_r.
      assert (Hfa : forallb (fun p => nltb QNum (nzero QNum) p) ps = true).
      { apply forallb_forall. intros p Hp. specialize (Hpp p Hp). cbn. pose proof (Qltb_spec 0 p). destruct (Qltb 0 p); auto. lra. }
      rewrite Hfa, Hs1, map_length. change (nV QNum) with Q in *. replace (length ixs =? length ps) with true by (symmetry; apply Nat.eqb_eq; lia).
      rewrite combine_map_l.
      destruct (@set_loop_rep (combine ixs ps) b1 _ _ _ Hr1) as (b2 & Hset & Hr2 & Hc2 & Hm2 & Hw2 & Hf2 & Hs2).
      { intros i p Hi. apply Hir. eapply in_combine_l; eauto. }
      change (nV QNum) with Q in *. rewrite Hset. cbn [bind].
      do 4 eexists. split; [reflexivity|]. split.
      { eapply us_update with (ixs := ixs) (nu := if Qltb 0 ur then d_nuni d else 0%nat) (w' := w'); eauto.
        - now rewrite map_length in Hsam. }
      cbn [pb_wait]. split; [|congruence].
      assert (Hrange : forall (i : nat) (p : Q), In (i, p) (combine ixs ps) -> (i < length l)%nat).
      { intros i p Hi. rewrite <- (map_length fst l). apply Hir. eapply in_combine_l; eauto. }
      unfold settled. cbn [pb_cap pb_max pb_wait pb_flag].
      rewrite map_fst_set_pris, map_snd_set_pris by auto.
      split; [|split; [congruence|split; [|split; [auto|split; [|split]]]]].
      + destruct Hr2 as (Ha & Hb & Hc & Hdd & He). unfold rep; cbn [pb_data pb_mins pb_sums].
        split; [auto|]. split; [auto|]. split; [|split; auto].
          rewrite <- (@go_settled (combine ixs ps) (map snd l) (zero_at (map snd l) ixs)); auto using zero_at_length.
          intros j Hj Hnj. apply zero_at_other. rewrite map_fst_combine in Hnj by lia. auto.
      + rewrite Hm2, map_snd_combine by lia. congruence.
      + intros p Hp. apply in_fold_upd in Hp as [Hp|Hp]; auto. rewrite map_snd_combine in Hp by lia. auto.
      + apply fold_max_pos; auto.
      + assert (Hlen : length (set_pris l (combine ixs ps)) = length l).
        { rewrite <- (map_length fst), map_fst_set_pris. apply map_length. }
        rewrite Hlen. exact Hlc.
  Qed.

  Lemma run_safe cap us : forall b l m, settled cap b l m -> pb_wait b = true -> safe cap (l, m) us ->
    exists os b' l' m', use_run b us = Ok (os, b') /\ map fst os = us /\
      use_steps cap (l, m) os (l', m') /\ settled cap b' l' m'.
  Proof.
    induction us as [|u us IH]; intros b l m Hs Hw Hsafe; cbn [use_run].
    - exists [], b, l, m. repeat split; auto; try constructor; apply Hs.
    - inversion Hsafe as [|? ? ? Hpre Hnext]; subst.
      destruct (exec_step u Hs Hpre Hw) as (o & b1 & l1 & m1 & -> & Hst & Hs1 & Hw1). cbn [bind].
      destruct (IH b1 l1 m1 Hs1 Hw1 (Hnext _ _ Hst)) as (os & b2 & l2 & m2 & -> & Hmap & Hsts & Hs2). cbn [bind].
      exists ((u, o) :: os), b2, l2, m2. split; [auto|]. split; [cbn; congruence|]. split; [|auto].
      econstructor; eauto.
  Qed.

  Lemma settled_init cap m : 0 < m -> settled cap (pb_init QNum cap true m) [] m.
  Proof.
    intros Hm. unfold settled, rep. cbn. repeat split; auto; try (intros ? []). destruct cap; auto; lia.
  Qed.

  Lemma pb_refines cap m us : 0 < m -> safe cap ([], m) us ->
    exists os (b : buf) l' m', use_run (pb_init QNum cap true m) us = Ok (os, b) /\ map fst os = us /\
      use_steps cap ([], m) os (l', m') /\ stores b l' m' /\
      match cap with Some c => (length (pb_data b) <= c)%nat | None => True end.
  Proof.
    intros Hm Hs. destruct (@run_safe cap us (pb_init QNum cap true m) [] m (settled_init cap Hm) eq_refl Hs)
      as (os & b & l' & m' & H1 & H2 & H3 & H4).
    exists os, b, l', m'. split; [auto|]. split; [auto|]. split; [auto|]. split; [eapply settled_stores; eauto|].
    destruct H4 as ((Hd & _) & _ & _ & _ & _ & _ & Hlc). rewrite Hd, map_length. exact Hlc.
  Qed.
End P.
