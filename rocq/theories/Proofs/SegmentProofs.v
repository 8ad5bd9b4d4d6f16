From Verif Require Import Base.PyBase Model.SegmentAgent Spec.SegmentSpec.
Set Implicit Arguments.

(** ** Segments *)
Section Seg.
  Context {A : Type}.

  Lemma full_snoc : forall n (l : list A) x, positive n ->
    if match n with Some m => Nat.eqb (length (remainder n l) + 1) m | None => false end
    then full n (l ++ [x]) = full n l ++ [remainder n l ++ [x]] /\ remainder n (l ++ [x]) = []
    else full n (l ++ [x]) = full n l /\ remainder n (l ++ [x]) = remainder n l ++ [x].
  Proof.
    intros [n|] l x Hn; [|split; reflexivity]. cbn [positive] in Hn. cbn [full remainder].
    set (q := length l / n).
    assert (D := Nat.div_mod (length l) n ltac:(lia)). fold q in D.
    assert (M := Nat.mod_upper_bound (length l) n ltac:(lia)).
    set (m := length l mod n) in *.
    assert (LR : length (skipn (q * n) l) = m) by (rewrite skipn_length; nia).
    assert (F : forall j, j < q -> firstn n (skipn (j * n) (l ++ [x])) = firstn n (skipn (j * n) l)).
    { intros j Hj. assert (j * n + n <= length l) by nia. rewrite skipn_app, firstn_app.
      replace (n - length (skipn (j * n) l)) with 0 by (rewrite skipn_length; lia). cbn [firstn]. apply app_nil_r. }
    rewrite LR. rewrite app_length. cbn [length].
    destruct (Nat.eqb_spec (m + 1) n) as [E|E].
    - assert (Q : (length l + 1) / n = S q).
      { symmetry. apply Nat.div_unique with 0; nia. }
      rewrite Q. split.
      + rewrite seq_S, map_app. cbn [plus map]. f_equal.
        * apply map_ext_in. intros j Hj. apply in_seq in Hj. apply F. lia.
        * f_equal. rewrite skipn_app. replace (q * n - length l) with 0 by nia. cbn [skipn]. apply firstn_all2. rewrite app_length, LR. cbn. lia.
      + apply skipn_all2. rewrite app_length. cbn. nia.
    - assert (Q : (length l + 1) / n = q).
      { symmetry. apply Nat.div_unique with (m + 1); nia. }
      rewrite Q. split.
      + apply map_ext_in. intros j Hj. apply in_seq in Hj. apply F. lia.
      + rewrite skipn_app. replace (q * n - length l) with 0 by nia. reflexivity.
  Qed.

  Lemma full_nil : forall n, full n (@nil A) = [] /\ remainder n (@nil A) = [].
  Proof.
    intros [n|]; [|split; reflexivity]. cbn [full remainder length]. split; [|apply skipn_nil].
    destruct n; reflexivity.
  Qed.

  (** The segments are the episode, cut: nothing lost, nothing twice. *)
  Lemma segments_concat : forall n (l : list A), positive n -> concat (segments n l) = l.
  Proof.
    intros n l Hn. unfold segments. rewrite concat_app.
    assert (G : concat (full n l) ++ remainder n l = l).
    { induction l as [|x l IH] using rev_ind; [destruct (full_nil n) as [-> ->]; reflexivity|].
      pose proof (full_snoc n l x Hn) as F. destruct (match n with Some m => _ | None => _ end); destruct F as [-> ->].
      - rewrite concat_app. cbn [concat]. rewrite !app_nil_r, app_assoc, IH. reflexivity.
      - rewrite app_assoc, IH. reflexivity. }
    destruct (remainder n l) as [|y r] eqn:E; cbn [concat]; rewrite ?app_nil_r; rewrite ?app_nil_r in G; exact G.
  Qed.
  Lemma segments_sizes : forall n (l : list A), 0 < n ->
    exists q r, segments (Some n) l = q ++ r /\ Forall (fun s => length s = n) q /\ length r <= 1 /\ Forall (fun s => 0 < length s < n) r.
  Proof.
    intros n l Hn. exists (full (Some n) l). eexists. split; [reflexivity|].
    assert (D := Nat.div_mod (length l) n ltac:(lia)). assert (M := Nat.mod_upper_bound (length l) n ltac:(lia)).
    split.
    - apply Forall_forall. intros s Hs. apply in_map_iff in Hs. destruct Hs as [j [<- Hj]]. apply in_seq in Hj.
      rewrite firstn_length, skipn_length. nia.
    - assert (L : length (remainder (Some n) l) < n) by (cbn [remainder]; rewrite skipn_length; nia).
      destruct (remainder (Some n) l); split; [cbn; auto | constructor | cbn; auto | constructor; [cbn in *; lia | constructor]].
  Qed.
End Seg.

(** ** Dictionaries *)
Section Dict.
  Context {V : Type}.
  Fixpoint enum (i : nat) (l : list V) : list (Z * V) :=
    match l with [] => [] | x :: t => (Z.of_nat i, x) :: enum (S i) t end.
  Lemma enum_length : forall l i, length (enum i l) = length l.
  Proof. induction l; intros; cbn; auto. Qed.
  Lemma dput_enum : forall l i x, dput (enum i l) (Z.of_nat (i + length l)) x = enum i (l ++ [x]).
  Proof.
    induction l as [|y l IH]; intros i x; cbn [enum dput length app]; [rewrite Nat.add_0_r; reflexivity|].
    destruct (Z.eqb_spec (Z.of_nat (i + S (length l))) (Z.of_nat i)); [lia|]. f_equal.
    rewrite <- Nat.add_succ_comm. apply IH.
  Qed.
  Lemma dget_enum : forall l i j, dget (enum i l) (Z.of_nat (i + j)) = match nth_error l j with Some v => Ok v | None => Raise KeyError end.
  Proof.
    induction l as [|y l IH]; intros i j; cbn [enum dget]; [destruct j; reflexivity|].
    destruct j as [|j]; cbn [nth_error].
    - rewrite Nat.add_0_r, Z.eqb_refl. reflexivity.
    - destruct (Z.eqb_spec (Z.of_nat (i + S j)) (Z.of_nat i)); [lia|]. rewrite <- Nat.add_succ_comm. apply IH.
  Qed.
  (** An entry just before the range, as ACER's first reward of an episode. *)
  Definition before (i : nat) (extra : list (Z * V)) : Prop := extra = [] \/ exists v, extra = [((Z.of_nat i - 1)%Z, v)].
  Lemma dput_before : forall extra i l x, before i extra ->
    dput (extra ++ enum i l) (Z.of_nat (i + length l)) x = extra ++ enum i (l ++ [x]).
  Proof.
    intros extra i l x [->|[v ->]]; cbn [app]; [apply dput_enum|]. cbn [dput].
    destruct (Z.eqb_spec (Z.of_nat (i + length l)) (Z.of_nat i - 1)); [lia|]. rewrite dput_enum. reflexivity.
  Qed.
  Lemma dget_before : forall extra i l j, before i extra -> dget (extra ++ enum i l) (Z.of_nat (i + j)) = dget (enum i l) (Z.of_nat (i + j)).
  Proof.
    intros extra i l j [->|[v ->]]; cbn [app]; [reflexivity|]. cbn [dget].
    destruct (Z.eqb_spec (Z.of_nat (i + j)) (Z.of_nat i - 1)); [lia | reflexivity].
  Qed.
End Dict.

Section P.
  Context {Obs Act D Rw : Type}.
  Notation step := (step Obs Act D Rw).
  Notation sagent := (sagent Obs Act D Rw).
  Notation sop := (sop Obs Act D Rw).
  Notation sev := (sev Obs Act D Rw).
  Variable c : sconf.
  Notation batch_of := (batch_of c).
  Notation n := (c_tmax c).
  Notation work := (@work_from Obs Act D Rw (c_online c) batch_of (c_replays c)).

  Definition sad (x : step) := (st_s x, st_a x, st_mu x).

  Lemma gather_enum : forall (xs : list (Obs * Act * D)) (rs : list Rw) extra i k, before i extra -> length xs = k -> length rs = k ->
    forall j, j <= k -> gather (enum i xs) (extra ++ enum i rs) (i + j) (k - j) = Ok (skipn j (combine xs rs)).
  Proof.
    intros xs rs extra i k Hb Hx Hr j Hj. remember (k - j) as m eqn:Em. revert j Hj Em. induction m as [|m IH]; intros j Hj Em; cbn [gather].
    - rewrite skipn_all2; [reflexivity | rewrite combine_length; lia].
    - rewrite dget_before by exact Hb. rewrite !dget_enum.
      destruct (nth_error xs j) as [x|] eqn:E1; [|apply nth_error_None in E1; lia].
      destruct (nth_error rs j) as [r|] eqn:E2; [|apply nth_error_None in E2; lia]. cbn [bind].
      rewrite <- Nat.add_succ_r, IH by lia. cbn [bind]. f_equal.
      assert (E3 : nth_error (combine xs rs) j = Some (x, r)).
      { clear -E1 E2. revert rs j E1 E2. induction xs as [|y xs IH]; intros [|r' rs] [|j] E1 E2; cbn in *; try discriminate; try congruence. apply IH; assumption. }
      clear -E3. revert E3. generalize (combine xs rs) as l. revert j. induction j as [|j IHj]; intros [|y l] E; cbn in *; try discriminate; [congruence|]. apply IHj, E.
  Qed.
  Lemma look_enum : forall (xs : list (Obs * Act * D)) i m j, j + m <= length xs -> look (enum i xs) (i + j) m = Ok tt.
  Proof.
    intros xs i. induction m as [|m IH]; intros j Hj; cbn [look]; [reflexivity|]. rewrite dget_enum.
    destruct (nth_error xs j) eqn:E; [|apply nth_error_None in E; lia]. cbn [bind]. rewrite <- Nat.add_succ_r. apply IH. lia.
  Qed.

  Lemma work_app : forall a b j, work j (a ++ b) = work j a ++ work (j + length a) b.
  Proof.
    induction a as [|x a IH]; intros b j; cbn [app work_from length]; [rewrite Nat.add_0_r; reflexivity|].
    rewrite IH, <- app_assoc. do 3 f_equal. lia.
  Qed.

  Lemma update_ok : forall (g : sagent) (seg : list step) extra J, 0 < batch_of -> seg <> [] -> before (s_start g) extra ->
    (c_kind c = KPcl -> extra = []) ->
    s_past g = enum (s_start g) (map sad seg) -> s_rewards g = extra ++ enum (s_start g) (map st_r seg) -> s_t g = s_start g + length seg ->
    (if c_online c then s_pending g = match c_kind c with KAcer => 0 | KPcl => J mod batch_of end else s_pending g = 0) ->
    forall boot, boot = (match rev seg with x :: _ => if st_done x then None else Some (st_next x) | [] => None end) ->
    exists p, update_and_replay c g boot = Ok (work_of (c_online c) batch_of (c_replays c) (S J) seg, mk_sag (s_t g) (s_t g) (s_last g) [] [] p) /\
      (if c_online c then p = match c_kind c with KAcer => 0 | KPcl => S J mod batch_of end else p = 0).
  Proof.
    intros g seg extra J HB Hne Hb He Hp Hr Ht Hpend boot ->. unfold update_and_replay, update_on_policy.
    assert (L : 0 < length seg) by (destruct seg; [congruence | cbn; lia]).
    rewrite (proj2 (Nat.ltb_lt (s_start g) (s_t g))) by lia. cbn [bind].
    replace (s_t g - s_start g) with (length seg) by lia.
    assert (G : gather (s_past g) (s_rewards g) (s_start g) (length seg) = Ok (combine (map sad seg) (map st_r seg))).
    { rewrite Hp, Hr. pose proof (@gather_enum (map sad seg) (map st_r seg) extra (s_start g) (length seg) Hb (map_length _ _) (map_length _ _) 0 ltac:(lia)) as G.
      rewrite Nat.add_0_r, Nat.sub_0_r in G. exact G. }
    assert (C : combine (map sad seg) (map st_r seg) = map (fun x => (st_s x, st_a x, st_mu x, st_r x)) seg).
    { clear. induction seg as [|x seg IH]; cbn; [reflexivity|]. rewrite IH. reflexivity. }
    rewrite C in G. unfold work_of. destruct (c_online c).
    - unfold SegmentSpec.batch_of in *. destruct (c_kind c).
      + rewrite G. cbn [bind]. eexists. split; [|exact Hpend]. reflexivity.
      + assert (Lk : look (s_past g) (s_start g + 1) (length seg - 1) = Ok tt) by (rewrite Hp; apply look_enum; rewrite map_length; lia). rewrite Lk. cbn [bind].
        replace (length (s_rewards g)) with (length seg) by (rewrite Hr, (He eq_refl); cbn [app]; rewrite enum_length, map_length; reflexivity).
        replace (length (s_past g)) with (length seg) by (rewrite Hp, enum_length, map_length; reflexivity).
        rewrite Nat.eqb_refl. cbn [bind]. rewrite G. cbn [bind]. rewrite Hpend.
        assert (DM := Nat.div_mod J (c_batch c) ltac:(lia)). assert (M := Nat.mod_upper_bound J (c_batch c) ltac:(lia)).
        destruct (Nat.eqb_spec (J mod c_batch c + 1) (c_batch c)) as [E|E]; cbn [bind s_pending].
        * assert (Em : S J mod c_batch c = 0). { symmetry. apply Nat.mod_unique with (S (J / c_batch c)); nia. }
          rewrite Em. cbn [Nat.eqb]. eexists. split; reflexivity.
        * assert (Em : S J mod c_batch c = J mod c_batch c + 1). { symmetry. apply Nat.mod_unique with (J / c_batch c); nia. }
          rewrite Em. replace (J mod c_batch c + 1 =? 0) with false by (symmetry; apply Nat.eqb_neq; lia).
          eexists. split; reflexivity.
    - cbn [bind s_pending]. rewrite Hpend. cbn [Nat.eqb app]. exists 0. split; [|reflexivity]. destruct (c_kind c); reflexivity.
  Qed.

  Definition segs (eps : list (list step)) (ep : list step) := all_segments n eps ep.

  (** The state after an interaction. *)
  Definition inv (g : sagent) (cur : option (Obs * Act * D)) (eps : list (list step)) (ep : list step) : Prop :=
    s_last g = cur /\
    (if c_online c then s_pending g = match c_kind c with KAcer => 0 | KPcl => length (segs eps ep) mod batch_of end else s_pending g = 0) /\
    match cur with
    | None => ep = [] /\ s_t g = s_start g /\ s_past g = [] /\ s_rewards g = []
    | Some x => exists extra, before (s_start g) extra /\ (c_kind c = KPcl -> extra = []) /\
        s_past g = enum (s_start g) (map sad (remainder n ep) ++ [x]) /\
        s_rewards g = extra ++ enum (s_start g) (map st_r (remainder n ep)) /\
        s_t g = s_start g + length (remainder n ep) + 1
    end.

  Definition buffer_ops (cur : option (Obs * Act * D)) (eps : list (list step)) (ep : list step) : list sev :=
    flat_map stored_closed eps ++ stored_open ep cur.

  Lemma with_next_snoc : forall (ep : list step) x z, with_next (ep ++ [x]) z = with_next ep (st_a x) ++ with_next [x] z.
  Proof.
    induction ep as [|y ep IH]; intros x z; [reflexivity|]. cbn [app with_next]. rewrite IH. f_equal. destruct ep; reflexivity.
  Qed.
  Lemma filter_all : forall A (f : A -> bool) l, Forall (fun x => f x = true) l -> filter f l = l.
  Proof. intros A f l H. induction H; cbn; [reflexivity|]. rewrite H. f_equal. assumption. Qed.
  Lemma filter_none : forall A (f : A -> bool) l, Forall (fun x => f x = false) l -> filter f l = [].
  Proof. intros A f l H. induction H; cbn; [reflexivity|]. rewrite H. assumption. Qed.
  Lemma work_is_work : forall j (seg : list step), Forall (fun e : sev => is_work e = true /\ is_buffer e = false) (work_of (c_online c) batch_of (c_replays c) j seg).
  Proof.
    intros. assert (R : forall k, Forall (fun e : sev => is_work e = true /\ is_buffer e = false) (repeat VReplay k)) by (induction k; cbn; repeat constructor; auto).
    unfold work_of. destruct (c_online c); [|apply R]. constructor; [split; reflexivity|]. destruct (_ =? 0); [|constructor]. constructor; [split; reflexivity | apply R].
  Qed.
  Lemma with_next_buffer : forall (ep : list step) z, Forall (fun e : sev => is_work e = false /\ is_buffer e = true) (with_next ep z).
  Proof. induction ep; intros; cbn; repeat constructor; auto. Qed.

  Definition stored_if (l : list sev) : list sev := if c_buffer c then l else [].

  Lemma seg_end : forall (l : list step) x, rev (l ++ [x]) = x :: rev l.
  Proof. intros. apply rev_app_distr. Qed.

  (** One step: the state moves with the interaction, and the events are the new
      work followed by what is newly stored. *)
  Lemma sstep_ok : forall (g : sagent) cur eps ep op, positive n -> 0 < batch_of ->
    (c_buffer c = true \/ c_kind c = KAcer) ->
    inv g cur eps ep ->
    match op with SStop _ _ _ => cur <> None | _ => True end ->
    exists l wk st g', sstep c g op = Ok (l, g') /\ l = wk ++ stored_if st /\
      Forall (fun e : sev => is_work e = true /\ is_buffer e = false) wk /\ Forall (fun e : sev => is_work e = false /\ is_buffer e = true) st /\
      let '(eps', ep', cur') := episodes_of cur ep [op] in
      inv g' cur' (eps ++ eps') ep' /\
      work 1 (segs (eps ++ eps') ep') = work 1 (segs eps ep) ++ wk /\
      buffer_ops cur' (eps ++ eps') ep' = buffer_ops cur eps ep ++ st.
  Proof.
    intros g cur eps ep op Hn HB Hbuf [Hl [Hpend Hc]] Hop.
    assert (ST : forall evs, store c evs = Ok (stored_if evs)).
    { intros evs. unfold store, stored_if. destruct Hbuf as [->| ->]; [reflexivity|]. destruct (c_buffer c); reflexivity. }
    destruct op as [o r a d|o r done|]; cbn [sstep].
    3: { exists [], [], []. exists g. unfold stored_if. split; [reflexivity|]. split; [destruct (c_buffer c); reflexivity|].
         split; [constructor|]. split; [constructor|]. cbn [episodes_of]. rewrite !app_nil_r. repeat split; assumption. }
    - (* act *)
      destruct cur as [[[s0 a0] d0]|].
      + destruct Hc as [extra [Hb [He [Hp [Hr Ht]]]]]. rewrite Hl.
        set (x := mk_step s0 a0 d0 r o false).
        assert (P : dput (s_rewards g) (Z.of_nat (s_t g) - 1) r = extra ++ enum (s_start g) (map st_r (remainder n ep ++ [x]))).
        { rewrite Hr, Ht. replace (Z.of_nat (s_start g + length (remainder n ep) + 1) - 1)%Z with (Z.of_nat (s_start g + length (map st_r (remainder n ep)))) by (rewrite map_length; lia).
          rewrite dput_before by exact Hb. rewrite map_app. reflexivity. }
        assert (P' : match c_kind c with KAcer => dput (s_rewards g) (Z.of_nat (s_t g) - 1) r | KPcl => dput (s_rewards g) (Z.of_nat (s_t g) - 1) r end = dput (s_rewards g) (Z.of_nat (s_t g) - 1) r) by (destruct (c_kind c); reflexivity).
        rewrite P', P. clear P P'. cbn [s_t s_start s_last s_past s_rewards s_pending].
        replace (s_t g - s_start g) with (length (remainder n ep) + 1) by lia.
        assert (Hp' : s_past g = enum (s_start g) (map sad (remainder n ep ++ [x]))) by (rewrite Hp, map_app; reflexivity).
        cbn [episodes_of]. fold x. rewrite !app_nil_r.
        pose proof (full_snoc n ep x Hn) as F.
        destruct (match n with Some m => length (remainder n ep) + 1 =? m | None => false end) eqn:EN; destruct F as [F1 F2].
        * set (g1 := mk_sag (s_t g) (s_start g) (Some (s0, a0, d0)) (s_past g) (extra ++ enum (s_start g) (map st_r (remainder n ep ++ [x]))) (s_pending g)).
          destruct (@update_ok g1 (remainder n ep ++ [x]) extra (length (segs eps ep)) HB) with (boot := Some o) as [p [U Up]];
            [destruct (remainder n ep); discriminate | exact Hb | exact He | exact Hp' | reflexivity | cbn [g1 s_t s_start]; rewrite app_length; cbn; lia | exact Hpend
            | rewrite seg_end; reflexivity|].
          cbn [g1 s_t s_last] in U. fold g1. rewrite U. cbn [bind s_last s_t s_past s_start s_rewards s_pending]. rewrite ST. cbn [bind dput].
          do 4 eexists. split; [reflexivity|]. split; [reflexivity|]. split; [apply work_is_work|]. split; [constructor; [split; reflexivity | constructor]|].
          assert (SG : segs eps (ep ++ [x]) = segs eps ep ++ [remainder n ep ++ [x]]) by (unfold segs, all_segments; rewrite F1, app_assoc; reflexivity).
          split; [|split].
          { unfold inv. cbn [s_last s_pending s_past s_start s_rewards s_t]. split; [reflexivity|]. split; [rewrite SG, app_length, Nat.add_1_r; exact Up|].
            exists []. split; [left; reflexivity|]. split; [auto|]. rewrite F2. cbn. repeat split; lia. }
          { rewrite SG, work_app. cbn [work_from]. rewrite app_nil_r. do 3 f_equal. }
          { unfold buffer_ops. rewrite <- app_assoc. f_equal. cbn [stored_open]. rewrite with_next_snoc. reflexivity. }
        * cbn [bind s_last s_t s_past s_start s_rewards s_pending]. rewrite ST. cbn [bind].
          exists (stored_if [VAppend (mk_strans s0 a0 r o a false d0)]), [], [VAppend (mk_strans s0 a0 r o a false d0)]. eexists.
          split; [reflexivity|]. split; [reflexivity|]. split; [constructor|]. split; [constructor; [split; reflexivity | constructor]|].
          assert (SG : segs eps (ep ++ [x]) = segs eps ep) by (unfold segs, all_segments; rewrite F1; reflexivity).
          split; [|split].
          { unfold inv. cbn [s_last s_pending s_past s_start s_rewards s_t]. split; [reflexivity|]. rewrite SG. split; [exact Hpend|].
            exists extra. split; [exact Hb|]. split; [exact He|]. rewrite F2. split; [|split; [reflexivity | rewrite app_length; cbn; lia]].
            rewrite Hp', Ht. replace (Z.of_nat (s_start g + length (remainder n ep) + 1)) with (Z.of_nat (s_start g + length (map sad (remainder n ep ++ [x])))) by (rewrite map_length, app_length; cbn; lia).
            apply dput_enum. }
          { rewrite SG, app_nil_r. reflexivity. }
          { unfold buffer_ops. rewrite <- app_assoc. f_equal. cbn [stored_open]. rewrite with_next_snoc. reflexivity. }
      + destruct Hc as [-> [Ht [Hp Hr]]]. rewrite Hl, Hr, Hp. cbn [s_t s_start s_last s_past s_rewards s_pending].
        rewrite Ht, Nat.sub_diag.
        assert (N0 : match n with Some m => 0 =? m | None => false end = false).
        { destruct n as [m|]; [|reflexivity]. cbn in Hn. apply Nat.eqb_neq. lia. }
        rewrite N0. cbn [bind s_last s_t s_past s_start s_rewards s_pending app dput].
        destruct (@full_nil step n) as [_ R0].
        exists [], [], []. eexists. split; [reflexivity|]. split; [unfold stored_if; destruct (c_buffer c); reflexivity|].
        split; [constructor|]. split; [constructor|]. cbn [episodes_of]. rewrite !app_nil_r.
        split; [|split].
        { unfold inv. cbn [s_last s_pending s_past s_start s_rewards s_t]. split; [reflexivity|]. split; [exact Hpend|].
          rewrite R0. cbn [map length app enum].
          exists (match c_kind c with KAcer => [((Z.of_nat (s_start g) - 1)%Z, r)] | KPcl => [] end).
          destruct (c_kind c); cbn [dput app]; (split; [unfold before; eauto|]; split; [congruence|]; repeat split; lia). }
        { reflexivity. }
        { unfold buffer_ops. reflexivity. }
    - (* stop *)
      destruct cur as [[[s0 a0] d0]|]; [|congruence]. rewrite Hl.
      destruct Hc as [extra [Hb [He [Hp [Hr Ht]]]]].
      set (x := mk_step s0 a0 d0 r o done).
      assert (P : dput (s_rewards g) (Z.of_nat (s_t g) - 1) r = extra ++ enum (s_start g) (map st_r (remainder n ep ++ [x]))).
      { rewrite Hr, Ht. replace (Z.of_nat (s_start g + length (remainder n ep) + 1) - 1)%Z with (Z.of_nat (s_start g + length (map st_r (remainder n ep)))) by (rewrite map_length; lia).
        rewrite dput_before by exact Hb. rewrite map_app. reflexivity. }
      rewrite P. clear P.
      assert (Hp' : s_past g = enum (s_start g) (map sad (remainder n ep ++ [x]))) by (rewrite Hp, map_app; reflexivity).
      set (g1 := mk_sag (s_t g) (s_start g) (Some (s0, a0, d0)) (s_past g) (extra ++ enum (s_start g) (map st_r (remainder n ep ++ [x]))) (s_pending g)).
      destruct (@update_ok g1 (remainder n ep ++ [x]) extra (length (segs eps ep)) HB) with (boot := if done then @None Obs else Some o) as [p [U Up]];
        [destruct (remainder n ep); discriminate | exact Hb | exact He | exact Hp' | reflexivity | cbn [g1 s_t s_start]; rewrite app_length; cbn; lia | exact Hpend
        | rewrite seg_end; reflexivity|].
      cbn [g1 s_t s_last] in U. fold g1. rewrite U. cbn [bind s_last s_t s_past s_start s_rewards s_pending]. rewrite ST. cbn [bind].
      do 4 eexists. split; [reflexivity|]. split; [reflexivity|]. split; [apply work_is_work|]. split; [repeat (constructor; [split; reflexivity|]); constructor|].
      cbn [episodes_of]. fold x.
      assert (SG : segs (eps ++ [ep ++ [x]]) [] = segs eps ep ++ [remainder n ep ++ [x]]).
      { unfold segs, all_segments. destruct (@full_nil step n) as [-> _]. rewrite app_nil_r, map_app, concat_app. cbn [map concat]. rewrite app_nil_r, <- app_assoc. f_equal.
        unfold segments. pose proof (full_snoc n ep x Hn) as F. destruct (match n with Some m => length (remainder n ep) + 1 =? m | None => false end); destruct F as [-> ->].
        - rewrite app_nil_r. reflexivity.
        - destruct (remainder n ep ++ [x]) eqn:E; [destruct (remainder n ep); discriminate | reflexivity]. }
      split; [|split].
      { unfold inv. cbn [s_last s_pending s_past s_start s_rewards s_t]. split; [reflexivity|]. split; [rewrite SG, app_length, Nat.add_1_r; exact Up|]. auto. }
      { rewrite SG, work_app. cbn [work_from]. rewrite app_nil_r. do 3 f_equal. }
      { unfold buffer_ops. rewrite flat_map_app. cbn [flat_map stored_open]. rewrite !app_nil_r, <- app_assoc. f_equal.
        unfold stored_closed. rewrite seg_end. rewrite with_next_snoc, <- app_assoc. reflexivity. }
  Qed.

  Lemma episodes_cons : forall cur ep op (ops : list sop),
    episodes_of cur ep (op :: ops) =
    (let '(eps1, ep1, cur1) := episodes_of cur ep [op] in let '(eps2, ep2, cur2) := episodes_of cur1 ep1 ops in (eps1 ++ eps2, ep2, cur2)).
  Proof.
    intros cur ep op ops. destruct op as [o r a d|o r done|]; cbn [episodes_of]; destruct cur as [[[s0 a0] d0]|];
      try (destruct (episodes_of _ _ ops) as [[? ?] ?]; reflexivity).
  Qed.

  Lemma sruns_ok : forall (ops : list sop) (g : sagent) cur eps ep, positive n -> 0 < batch_of ->
    (c_buffer c = true \/ c_kind c = KAcer) -> inv g cur eps ep -> sformed (match cur with Some _ => true | None => false end) ops = true ->
    exists l g', sruns c g ops = Ok (l, g') /\
      let '(eps', ep', cur') := episodes_of cur ep ops in
      inv g' cur' (eps ++ eps') ep' /\
      work 1 (segs (eps ++ eps') ep') = work 1 (segs eps ep) ++ filter is_work l /\
      stored_if (buffer_ops cur' (eps ++ eps') ep') = stored_if (buffer_ops cur eps ep) ++ filter is_buffer l.
  Proof.
    induction ops as [|op ops IH]; intros g cur eps ep Hn HB Hbuf Hi Hf.
    - exists [], g. split; [reflexivity|]. cbn [episodes_of filter]. rewrite !app_nil_r. auto.
    - cbn [sruns]. assert (Hop : match op with SStop _ _ _ => cur <> None | _ => True end).
      { destruct op; try exact I. cbn in Hf. destruct cur; [discriminate | discriminate Hf]. }
      destruct (@sstep_ok g cur eps ep op Hn HB Hbuf Hi Hop) as (l & wk & st & g1 & E & El & Fw & Fs & S1).
      rewrite E. cbn [bind]. rewrite episodes_cons. destruct (episodes_of cur ep [op]) as [[eps1 ep1] cur1] eqn:Eo.
      destruct S1 as [I1 [W1 B1]].
      assert (Hf1 : sformed (match cur1 with Some _ => true | None => false end) ops = true).
      { destruct op as [o r a d|o r done|]; cbn [episodes_of sformed] in *.
        - destruct cur as [[[s0 a0] d0]|]; injection Eo as <- <- <-; exact Hf.
        - apply andb_true_iff in Hf. destruct cur as [[[s0 a0] d0]|]; injection Eo as <- <- <-; apply Hf.
        - injection Eo as <- <- <-. exact Hf. }
      destruct (IH g1 cur1 (eps ++ eps1) ep1 Hn HB Hbuf I1 Hf1) as (l' & g' & E' & S2). rewrite E'. cbn [bind].
      exists (l ++ l'), g'. split; [reflexivity|]. destruct (episodes_of cur1 ep1 ops) as [[eps2 ep2] cur2].
      destruct S2 as [I2 [W2 B2]]. rewrite app_assoc. split; [exact I2|].
      assert (Fw1 : filter is_work l = wk /\ filter is_buffer l = stored_if st).
      { subst l. rewrite !filter_app. unfold stored_if. split.
        - rewrite filter_all by (eapply Forall_impl; [|exact Fw]; cbn; tauto).
          destruct (c_buffer c); [rewrite filter_none by (eapply Forall_impl; [|exact Fs]; cbn; tauto)|]; apply app_nil_r.
        - rewrite filter_none by (eapply Forall_impl; [|exact Fw]; cbn; tauto). cbn [app].
          destruct (c_buffer c); [apply filter_all; eapply Forall_impl; [|exact Fs]; cbn; tauto | reflexivity]. }
      destruct Fw1 as [F1 F2]. rewrite !filter_app, F1, F2. split.
      + rewrite W2, W1, app_assoc. reflexivity.
      + rewrite B2, B1, app_assoc. f_equal. unfold stored_if. destruct (c_buffer c); reflexivity.
  Qed.

  Theorem interaction : forall (ops : list sop), positive n -> 0 < batch_of ->
    (c_buffer c = true \/ c_kind c = KAcer) -> sformed false ops = true ->
    exists l g', sruns c sagent_init ops = Ok (l, g') /\
      let '(eps, ep, cur) := episodes_of None [] ops in
      filter is_work l = work 1 (all_segments n eps ep) /\
      filter is_buffer l = if c_buffer c then flat_map stored_closed eps ++ stored_open ep cur else [].
  Proof.
    intros ops Hn HB Hbuf Hf.
    assert (I0 : inv sagent_init None [] []).
    { unfold inv. cbn [sagent_init s_last s_pending s_t s_start s_past s_rewards]. split; [reflexivity|]. split; [|auto].
      unfold segs, all_segments. destruct (@full_nil step n) as [-> _]. cbn [map concat app length].
      destruct (c_online c); [|reflexivity]. destruct (c_kind c); [reflexivity|]. symmetry. apply Nat.mod_0_l. lia. }
    destruct (@sruns_ok ops _ _ _ _ Hn HB Hbuf I0 Hf) as (l & g' & E & S0). exists l, g'. split; [exact E|].
    destruct (episodes_of None [] ops) as [[eps ep] cur]. destruct S0 as [_ [W B]]. cbn [app] in W, B.
    unfold segs in W. assert (S0 : all_segments n [] [] = @nil (list step)) by (unfold all_segments; destruct (@full_nil step n) as [-> _]; reflexivity).
    rewrite S0 in W. cbn [work_from app] in W. split; [symmetry; exact W|].
    unfold buffer_ops, stored_if in B. destruct (c_buffer c); cbn in B; symmetry; exact B.
  Qed.

  (** Resumed: the steps before the offset are missing. *)
  Lemma gather_missing : forall past (rewards : list (Z * Rw)) m i j, i <= j < i + m -> dget past (Z.of_nat j) = Raise KeyError ->
    forall (seg : list (Obs * Act * D * Rw)), gather past rewards i m <> Ok seg.
  Proof.
    intros past rewards. induction m as [|m IH]; intros i j Hj Hm seg H; [lia|]. cbn [gather] in H.
    destruct (Nat.eq_dec i j) as [->|Hne]; [rewrite Hm in H; discriminate|].
    destruct (dget past (Z.of_nat i)); [|discriminate]. cbn [bind] in H. destruct (dget rewards (Z.of_nat i)); [|discriminate]. cbn [bind] in H.
    destruct (gather past rewards (S i) m) eqn:E; [|discriminate]. eapply (IH (S i) j); [lia | exact Hm | exact E].
  Qed.
  Lemma update_missing : forall (g : sagent) j boot, c_online c = true -> s_start g = 0 -> j < s_t g -> dget (s_past g) (Z.of_nat j) = Raise KeyError ->
    exists e, update_and_replay c g boot = Raise e.
  Proof.
    intros g j boot Ho H0 Hj Hm. unfold update_and_replay, update_on_policy. rewrite Ho, H0, (proj2 (Nat.ltb_lt 0 (s_t g))) by lia. cbn [bind].
    assert (G : forall seg, gather (s_past g) (s_rewards g) 0 (s_t g - 0) <> Ok seg) by (intros seg; apply gather_missing with j; [lia | exact Hm]).
    destruct (c_kind c).
    - destruct (gather _ _ 0 _) as [seg|e]; [destruct (G seg eq_refl) | eexists; reflexivity].
    - destruct (look _ _ _); [|eexists; reflexivity]. cbn [bind]. destruct (Nat.eqb (length (s_rewards g)) _); [|eexists; reflexivity].
      destruct (Nat.eqb (length (s_past g)) _); [|eexists; reflexivity]. cbn [bind].
      destruct (gather _ _ 0 _) as [seg|e]; [destruct (G seg eq_refl) | eexists; reflexivity].
  Qed.
  Lemma dget_dput : forall V (d : list (Z * V)) k v j, j <> k -> dget (dput d k v) j = dget d j.
  Proof.
    induction d as [|[k' v'] d IH]; intros k v j Hj; cbn [dput dget].
    - destruct (Z.eqb_spec j k); [congruence | reflexivity].
    - destruct (Z.eqb_spec k k') as [->|]; cbn [dget]; [destruct (Z.eqb_spec j k'); [congruence | reflexivity]|]. rewrite IH by exact Hj. reflexivity.
  Qed.
  Lemma resumed_raises : forall acts (g : sagent) j o r done, c_online c = true -> s_start g = 0 -> j < s_t g -> dget (s_past g) (Z.of_nat j) = Raise KeyError ->
    exists e, sruns c g (map (fun '(o, r, a, d) => SAct o r a d) acts ++ [SStop o r done]) = Raise e.
  Proof.
    induction acts as [|[[[o0 r0] a0] d0] acts IH]; intros g j o r done Ho H0 Hj Hm; cbn [map app sruns sstep].
    - destruct (s_last g) as [[[s a] d]|]; [|eexists; reflexivity].
      destruct (@update_missing (mk_sag (s_t g) (s_start g) (Some (s, a, d)) (s_past g) (dput (s_rewards g) (Z.of_nat (s_t g) - 1) r) (s_pending g)) j (if done then None else Some o) Ho H0 Hj Hm) as [e ->].
      eexists. reflexivity.
    - set (g1 := mk_sag (s_t g) (s_start g) (s_last g) (s_past g) _ (s_pending g)).
      destruct (match n with Some m => s_t g1 - s_start g1 =? m | None => false end).
      + destruct (@update_missing g1 j (Some o0) Ho H0 Hj Hm) as [e ->]. eexists. reflexivity.
      + cbn [bind].
        assert (St : exists l', match s_last g1 with Some (s, a', d') => store c [VAppend (mk_strans s a' r0 o0 a0 false d')] | None => Ok [] end = l') by eauto.
        destruct St as [[l'|e] ->]; [|eexists; reflexivity]. cbn [bind].
        destruct (IH (mk_sag (s_t g1 + 1) (s_start g1) (Some (o0, a0, d0)) (dput (s_past g1) (Z.of_nat (s_t g1)) (o0, a0, d0)) (s_rewards g1) (s_pending g1)) j o r done) as [e ->];
          [exact Ho | exact H0 | cbn; lia | cbn [s_past g1]; rewrite dget_dput by (cbn; lia); exact Hm |]. eexists. reflexivity.
  Qed.
End P.
