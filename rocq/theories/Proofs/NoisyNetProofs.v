From Coq Require Import Reals List Arith String Bool Lia Lra.
From Verif Require Import Base.PyBase Model.Quadratic Model.NoisyNet Spec.SumSpec Spec.NoisyNetSpec Proofs.RSumFacts.
Import ListNotations.
Set Implicit Arguments.

Lemma nd_l : forall X (a b : list X), NoDup (a ++ b) -> NoDup b.
Proof. induction a; intros b H; cbn in H; [exact H|]. inversion H; subst. apply IHa; assumption. Qed.
Lemma nd_r : forall X (a b : list X), NoDup (a ++ b) -> NoDup a.
Proof.
  induction a; intros b H; cbn in H; [constructor|]. inversion H; subst. constructor; [|apply (IHa b); assumption].
  intros Q. apply H2, in_or_app. auto.
Qed.

Lemma f2_len : forall X Y (R : X -> Y -> Prop) a b, Forall2 R a b -> List.length a = List.length b.
Proof. induction 1; cbn; congruence. Qed.

Section Conv.
  Variables P F : Type.
  Variable fresh : nat -> P.
  Notation tree := (tree P F). Notation label := (label P F). Notation heap := (heap P F).

  Section Ind.
    Variable Q : tree -> Prop.
    Hypothesis step : forall i l k, Forall Q k -> Q (T i l k).
    Fixpoint tree_ind2 (t : tree) : Q t :=
      match t with
      | T i l k => step i l ((fix go (k : list tree) : Forall Q k := match k with [] => Forall_nil Q | t :: k => Forall_cons t (tree_ind2 t) (go k) end) k)
      end.
  End Ind.

  Lemma rep_inv : forall (h : heap) i (l : label) k, rep h (T i l k) -> nth_error h i = Some (node_of l (map (@root P F) k)) /\ fits l (List.length k) /\ Forall (rep h) k.
  Proof. intros h i l k H. inversion H. auto. Qed.

  Lemma rep_frame : forall (t : tree) (h h' : heap), (forall j, In j (ids t) -> nth_error h' j = nth_error h j) -> rep h t -> rep h' t.
  Proof.
    induction t as [i l k IH] using tree_ind2. intros h h' E R. apply rep_inv in R. destruct R as (A & B & C). constructor.
    - rewrite E by (left; reflexivity). exact A.
    - exact B.
    - rewrite Forall_forall in *. intros t Ht. apply (IH t Ht h); [|apply C, Ht].
      intros j Hj. apply E. right. apply in_flat_map. exists t. auto.
  Qed.
  Lemma rep_bound : forall (t : tree) (h : heap) j, rep h t -> In j (ids t) -> j < List.length h.
  Proof.
    induction t as [i l k IH] using tree_ind2. intros h j R Hj. apply rep_inv in R. destruct R as (A & _ & C). destruct Hj as [<-|Hj].
    - apply nth_error_Some. congruence.
    - apply in_flat_map in Hj. destruct Hj as (t & Ht & Hj). rewrite Forall_forall in *. apply (IH t Ht h j); auto.
  Qed.
  Lemma root_in : forall t : tree, In (root t) (ids t).
  Proof. intros [i l k]. left. reflexivity. Qed.

  Lemma upd_mid : forall X (a : list X) x b y, upd (a ++ x :: b) (List.length a) y = a ++ y :: b.
  Proof. induction a; intros; cbn; [reflexivity|]. f_equal. apply IHa. Qed.
  Lemma upd_len : forall X (l : list X) k y, List.length (upd l k y) = List.length l.
  Proof. induction l; intros [|k] y; cbn; auto. Qed.
  Lemma upd_same : forall X (l : list X) k y, k < List.length l -> nth_error (upd l k y) k = Some y.
  Proof. induction l; intros [|k] y H; cbn in *; try lia; [reflexivity|]. apply IHl. lia. Qed.
  Lemma upd_other : forall X (l : list X) k j y, j <> k -> nth_error (upd l k y) j = nth_error l j.
  Proof. induction l; intros [|k] [|j] y H; cbn; try reflexivity; try congruence. apply IHl. congruence. Qed.

  (** Replacing one child. *)
  Lemma kids_of_node : forall (l : label) roots, fits l (List.length roots) -> kids_of (node_of l roots) = roots.
  Proof.
    intros [a b c w|o b|names| |p|attrs|] roots Fi; cbn in *; try reflexivity.
    - destruct roots; [reflexivity|discriminate].
    - destruct roots as [|x [|y [|]]]; cbn in *; try discriminate. reflexivity.
    - revert roots Fi. induction names as [|n names IH]; intros [|r roots] Fi; cbn in *; try discriminate; [reflexivity|]. f_equal. apply IH. lia.
    - destruct roots; [reflexivity|discriminate].
  Qed.
  Lemma fill_count : forall (p : list (option F)) a x b, List.length (filter is_none p) = List.length (a ++ x :: b) -> NoDup (a ++ x :: b) ->
    List.length (filter (@is_id F x) (fill p (a ++ x :: b))) = 1.
  Proof.
    induction p as [|[f|] p IH]; intros a x b L N.
    - rewrite app_length in L. cbn in L. lia.
    - cbn [fill filter is_id]. apply IH; [exact L|exact N].
    - destruct a as [|y a]; cbn [app] in *.
      + cbn [fill filter is_id]. rewrite Nat.eqb_refl. cbn [List.length]. f_equal.
        inversion N as [|? ? N1 N2]; subst.
        assert (G : forall (p : list (option F)) b, ~ In x b -> List.length (filter (@is_id F x) (fill p b)) = 0).
        { clear. induction p as [|[f|] p IH]; intros b N; cbn [fill]; [reflexivity|cbn [filter is_id]; apply IH, N|].
          destruct b as [|y b]; [reflexivity|]. cbn [filter is_id]. destruct (Nat.eqb x y) eqn:E; [apply Nat.eqb_eq in E; subst; exfalso; apply N; left; reflexivity|].
          apply IH. intros H. apply N. right. exact H. }
        apply G, N1.
      + inversion N as [|? ? N1 N2]; subst. cbn [fill filter is_id]. destruct (Nat.eqb x y) eqn:E.
        * apply Nat.eqb_eq in E. subst. exfalso. apply N1, in_or_app. right. left. reflexivity.
        * apply IH; [cbn in L; lia|exact N2].
  Qed.
  Lemma fill_replace : forall (p : list (option F)) a x b z, NoDup (a ++ x :: b) ->
    map (fun l => if is_id x l then inr z else l) (fill p (a ++ x :: b)) = fill p (a ++ z :: b).
  Proof.
    induction p as [|[f|] p IH]; intros a x b z N; cbn [fill map].
    - reflexivity.
    - cbn [is_id]. f_equal. apply IH, N.
    - destruct a as [|y a]; cbn [app map].
      + cbn [is_id]. rewrite Nat.eqb_refl. f_equal. inversion N as [|? ? N1 N2]; subst.
        assert (G : forall (p : list (option F)) b, ~ In x b -> map (fun l => if is_id x l then inr z else l) (fill p b) = fill p b).
        { clear. induction p as [|[f|] p IH]; intros b N; cbn [fill map]; [reflexivity|cbn [is_id]; f_equal; apply IH, N|].
          destruct b as [|y b]; [reflexivity|]. cbn [map is_id]. destruct (Nat.eqb x y) eqn:E; [apply Nat.eqb_eq in E; subst; exfalso; apply N; left; reflexivity|].
          f_equal. apply IH. intros H. apply N. right. exact H. }
        apply G, N1.
      + inversion N as [|? ? N1 N2]; subst. cbn [is_id]. destruct (Nat.eqb x y) eqn:E.
        * apply Nat.eqb_eq in E. subst. exfalso. apply N1, in_or_app. right. left. reflexivity.
        * f_equal. apply IH, N2.
  Qed.
  Lemma set_kid_node : forall (l : label) a x b z, fits l (List.length (a ++ x :: b)) -> NoDup (a ++ x :: b) ->
    set_kid (node_of l (a ++ x :: b)) (List.length a) x z = Ok (node_of l (a ++ z :: b)).
  Proof.
    intros [i o c w|o c|names| |p|attrs|] a x b z Fi N; cbn [fits] in Fi; try (rewrite app_length in Fi; cbn in Fi; lia).
    - rewrite app_length in Fi. cbn in Fi. destruct a as [|y a]; cbn in *.
      + destruct b as [|y [|]]; cbn in *; try lia. reflexivity.
      + destruct a; cbn in *; try lia. destruct b; cbn in *; [reflexivity|lia].
    - cbn [set_kid node_of]. do 2 f_equal.
      replace (map snd (combine names (a ++ x :: b))) with (a ++ x :: b).
      + rewrite upd_mid. f_equal. revert Fi. generalize (a ++ x :: b). clear. induction names as [|n names IH]; intros [|r l] H; cbn in *; try discriminate; [reflexivity|]. f_equal. apply IH. lia.
      + revert Fi. generalize (a ++ x :: b). clear. induction names as [|n names IH]; intros [|r l] H; cbn in *; try discriminate; [reflexivity|]. f_equal. apply IH. lia.
    - cbn [set_kid node_of]. rewrite upd_mid. reflexivity.
    - cbn [set_kid node_of]. unfold replace_unique_item. rewrite fill_count by assumption. cbn [Nat.eqb bind]. rewrite upd_mid, fill_replace by assumption. reflexivity.
    - cbn [set_kid node_of]. rewrite upd_mid. reflexivity.
  Qed.
  Lemma fits_len : forall (l : label) n m, n = m -> fits l n -> fits l m.
  Proof. intros l n m -> H. exact H. Qed.

  Lemma nodup_roots : forall (k : list tree), NoDup (flat_map (@ids P F) k) -> NoDup (map (@root P F) k).
  Proof.
    induction k as [|t k IH]; intros N; cbn in *; [constructor|]. 
    assert (N2 : NoDup (flat_map (@ids P F) k)) by (apply nd_l in N; exact N).
    constructor; [|apply IH, N2]. intros H. apply in_map_iff in H. destruct H as (u & E & Hu).
    destruct t as [i l kk]. cbn [root] in E. cbn [ids] in N. cbn [app] in N. inversion N as [|? ? N1 _]; subst. apply N1. apply in_or_app. right.
    apply in_flat_map. exists u. split; [exact Hu|apply root_in].
  Qed.

  (** A successful conversion of the subtree [t]. *)

  Lemma height_kid : forall (k : list tree) t m, In t k -> fold_right (fun t m => Nat.max (height t) m) 0 k <= m -> height t <= m.
  Proof. induction k as [|u k IH]; intros t m H L; [destruct H|]. cbn in L. destruct H as [<-|H]; [lia|]. apply (IH t m H). lia. Qed.

  Lemma in_dn : forall (dn : list tree) j, In j (flat_map (@ids P F) dn) -> exists t, In t dn /\ In j (ids t).
  Proof. intros dn j H. apply in_flat_map in H. exact H. Qed.

  Lemma loop_ok : forall fuel i (l : label) (rest dn : list tree) (h : heap),
    (forall t, In t rest -> is_lin t = false -> forall h : heap, rep h t -> NoDup (ids t) -> height t <= fuel ->
       exists h' t', map_links fresh fuel h (root t) = Ok h' /\ root t' = root t /\ converted fresh h t t' h') ->
    nth_error h i = Some (node_of l (map (@root P F) (dn ++ rest))) -> fits l (List.length (dn ++ rest)) ->
    Forall (rep h) dn -> Forall (rep h) rest -> NoDup (i :: flat_map (@ids P F) (dn ++ rest)) ->
    (forall t, In t rest -> height t <= fuel) ->
    exists h' rest', kid_loop fresh (map_links fresh fuel) (List.length rest) (List.length dn) i h = Ok h' /\
      Forall2 (conv fresh) rest rest' /\ nth_error h' i = Some (node_of l (map (@root P F) (dn ++ rest'))) /\
      Forall (rep h') dn /\ Forall (rep h') rest' /\ NoDup (i :: flat_map (@ids P F) (dn ++ rest')) /\ List.length h <= List.length h' /\
      (forall j, j < List.length h -> ~ In j (i :: flat_map (@ids P F) rest) -> nth_error h' j = nth_error h j) /\
      (forall j, In j (flat_map (@ids P F) rest') -> In j (flat_map (@ids P F) rest) \/ List.length h <= j).
  Proof.
    intros fuel i l. induction rest as [|c rest IH]; intros dn h REC Hi Fi Rd Rr N Hh.
    - exists h, []. cbn [kid_loop List.length]. repeat split; try assumption; [constructor|lia|auto].
    - cbn [kid_loop List.length]. rewrite Hi.
      rewrite kids_of_node by (rewrite map_length; exact Fi).
      rewrite map_app. rewrite nth_error_app2 by (rewrite map_length; lia). rewrite map_length, Nat.sub_diag. cbn [map nth_error].
      assert (Rc : rep h c) by (inversion Rr; assumption). assert (Rr' : Forall (rep h) rest) by (inversion Rr; assumption).
      assert (Hil : i < List.length h) by (apply nth_error_Some; congruence).
      assert (Nin : ~ In i (flat_map (@ids P F) (dn ++ c :: rest))) by (inversion N; assumption).
      assert (Nfl : NoDup (flat_map (@ids P F) (dn ++ c :: rest))) by (inversion N; assumption).
      assert (Nfl' := Nfl). rewrite flat_map_app in Nfl'. cbn [flat_map] in Nfl'.
      assert (Bd : forall j, In j (flat_map (@ids P F) dn) -> j < List.length h).
      { intros j Hj. apply in_dn in Hj. destruct Hj as (t & Ht & Hj). rewrite Forall_forall in Rd. exact (@rep_bound t h j (Rd t Ht) Hj). }
      assert (Br : forall j, In j (flat_map (@ids P F) rest) -> j < List.length h).
      { intros j Hj. apply in_dn in Hj. destruct Hj as (t & Ht & Hj). rewrite Forall_forall in Rr'. exact (@rep_bound t h j (Rr' t Ht) Hj). }
      assert (Bc : forall j, In j (ids c) -> j < List.length h) by (intros j Hj; exact (@rep_bound c h j Rc Hj)).
      assert (Disj1 : forall j, In j (ids c) -> ~ In j (flat_map (@ids P F) dn)).
      { intros j Hj Hd. assert (G : forall a b : list nat, NoDup (a ++ b) -> In j a -> In j b -> False).
        { clear. induction a; intros b N H1 H2; [destruct H1|]. cbn in N. inversion N; subst. destruct H1 as [<-|H1]; [apply H3, in_or_app; auto|]. apply (IHa b); auto. }
        apply (G _ _ Nfl' Hd). apply in_or_app. auto. }
      assert (Disj2 : forall j, In j (flat_map (@ids P F) rest) -> ~ In j (flat_map (@ids P F) dn) /\ ~ In j (ids c)).
      { intros j Hj. assert (G : forall a b : list nat, NoDup (a ++ b) -> In j a -> In j b -> False).
        { clear. induction a; intros b N H1 H2; [destruct H1|]. cbn in N. inversion N; subst. destruct H1 as [<-|H1]; [apply H3, in_or_app; auto|]. apply (IHa b); auto. }
        split; intros Hd.
        - apply (G _ _ Nfl' Hd). apply in_or_app. auto.
        - apply nd_l in Nfl'. apply (G _ _ Nfl' Hd Hj). }
      (* after the child, a new heap [h1] with the child [c1] in place *)
      assert (STEP : exists h1 c1, conv fresh c c1 /\ rep h1 c1 /\ NoDup (ids c1) /\ List.length h <= List.length h1 /\
         (forall j, In j (ids c1) -> In j (ids c) \/ List.length h <= j) /\
         nth_error h1 i = Some (node_of l (map (@root P F) (dn ++ c1 :: rest))) /\
         (forall j, j < List.length h -> j <> i -> ~ In j (ids c) -> nth_error h1 j = nth_error h j) /\
         match nth_error h (root c) with
         | None => Raise KeyError
         | Some (NLinear in_size out_size nobias _) =>
            let (h1, c') := make_noisy fresh h in_size out_size nobias in
            let! nd' := set_kid (node_of l (map (@root P F) dn ++ root c :: map (@root P F) rest)) (List.length dn) (root c) c' in
            kid_loop fresh (map_links fresh fuel) (List.length rest) (S (List.length dn)) i (upd h1 i nd')
         | Some _ => let! h1 := map_links fresh fuel h (root c) in kid_loop fresh (map_links fresh fuel) (List.length rest) (S (List.length dn)) i h1
         end = kid_loop fresh (map_links fresh fuel) (List.length rest) (S (List.length dn)) i h1).
      { destruct (is_lin c) eqn:EL.
        - destruct c as [ci [a o nb w| | | | | |] ck]; try discriminate. apply rep_inv in Rc. destruct Rc as (Ec & Fc & _).
          cbn [fits] in Fc. destruct ck as [|? ?]; [|discriminate]. cbn [root]. rewrite Ec. cbn [node_of]. unfold make_noisy.
          set (n := List.length h).
          assert (SK := @set_kid_node l (map (@root P F) dn) ci (map (@root P F) rest) (S (S n))).
          rewrite map_length in SK. rewrite SK; [|rewrite app_length, map_length; cbn [List.length]; rewrite map_length; rewrite app_length in Fi; cbn [List.length] in Fi; exact Fi|].
          2:{ apply nodup_roots in Nfl. rewrite map_app in Nfl. exact Nfl. }
          cbn [bind].
          eexists. exists (T (S (S n)) (LNoisy o nb) [T n (LLin a o nb (fresh n)) []; T (S n) (LLin a o nb (fresh (S n))) []]).
          assert (NE : forall j, j <> i -> nth_error (upd (h ++ [NLinear a o nb (fresh n); NLinear a o nb (fresh (S n)); NNoisy o nb n (S n)]) i (node_of l (map (@root P F) dn ++ S (S n) :: map (@root P F) rest))) j =
            nth_error (h ++ [NLinear a o nb (fresh n); NLinear a o nb (fresh (S n)); NNoisy o nb n (S n)]) j) by (intros j Hj; apply upd_other, Hj).
          split; [constructor|]. split; [|split; [|split; [|split; [|split; [|split; [|reflexivity]]]]]].
          + constructor; [|reflexivity|constructor; [|constructor; [|constructor]]].
            * rewrite NE by lia. rewrite nth_error_app2 by lia. replace (S (S n) - List.length h) with 2 by lia. reflexivity.
            * constructor; [|reflexivity|constructor]. rewrite NE by lia. rewrite nth_error_app2 by lia. replace (n - List.length h) with 0 by lia. reflexivity.
            * constructor; [|reflexivity|constructor]. rewrite NE by lia. rewrite nth_error_app2 by lia. replace (S n - List.length h) with 1 by lia. reflexivity.
          + cbn. repeat constructor; cbn; lia.
          + rewrite upd_len, app_length. lia.
          + intros j Hj. right. cbn in Hj. lia.
          + rewrite upd_same by (rewrite app_length; lia). rewrite map_app. reflexivity.
          + intros j Hj Hne _. rewrite NE by exact Hne. apply nth_error_app1. exact Hj.
        - destruct (REC c (or_introl eq_refl) EL h Rc) as (h1 & c1 & E & Er & Cv & R1 & L1 & N1 & Fr & Ids).
          { apply nd_l in Nfl'. apply nd_r in Nfl'. exact Nfl'. }
          { apply Hh. left. reflexivity. }
          exists h1, c1. split; [exact Cv|]. split; [exact R1|]. split; [exact N1|]. split; [exact L1|]. split; [exact Ids|]. split; [|split].
          + rewrite Fr; [|exact Hil|intros H; apply Nin; rewrite flat_map_app; apply in_or_app; right; cbn [flat_map]; apply in_or_app; left; exact H].
            rewrite Hi, !map_app. cbn [map]. rewrite Er. reflexivity.
          + intros j Hj _ Hn. apply Fr; assumption.
          + destruct c as [ci cl ck]. pose proof (rep_inv Rc) as (Ec & _ & _). cbn [root] in *. rewrite Ec.
            destruct cl; try discriminate; cbn [node_of]; rewrite E; reflexivity. }
      destruct STEP as (h1 & c1 & Cv & R1 & N1 & L1 & Ids1 & Hi1 & Fr1 & EQ). rewrite EQ. clear EQ.
      assert (KEEP : forall t, In t dn \/ In t rest -> rep h1 t).
      { intros t Ht. assert (Rt : rep h t) by (rewrite !Forall_forall in *; destruct Ht as [Ht|Ht]; [apply Rd, Ht|apply Rr', Ht]).
        apply (@rep_frame t h h1); [|exact Rt]. intros j Hj. apply Fr1; [exact (@rep_bound t h j Rt Hj)| |].
        - intros ->. apply Nin. rewrite flat_map_app. apply in_or_app. destruct Ht as [Ht|Ht]; [left|right; cbn [flat_map]; apply in_or_app; right]; apply in_flat_map; exists t; auto.
        - destruct Ht as [Ht|Ht].
          + intros Hc. apply (Disj1 j Hc). apply in_flat_map. exists t; auto.
          + apply (Disj2 j). apply in_flat_map. exists t; auto. }
      specialize (IH (dn ++ [c1]) h1). assert (LL : List.length (dn ++ [c1]) = S (List.length dn)) by (rewrite app_length; cbn; lia). rewrite LL in IH.
      assert (AA : forall r : list tree, (dn ++ [c1]) ++ r = dn ++ c1 :: r) by (intros r; rewrite <- app_assoc; reflexivity).
      assert (Nnew : forall rest0, NoDup (flat_map (@ids P F) dn ++ flat_map (@ids P F) rest0) -> (forall j, In j (ids c1) -> ~ In j (flat_map (@ids P F) rest0)) -> ~ In i (flat_map (@ids P F) rest0) ->
         NoDup (i :: flat_map (@ids P F) (dn ++ c1 :: rest0))).
      { intros rest0 NN DD Ni. constructor.
        - rewrite flat_map_app. cbn [flat_map]. intros H. apply in_app_or in H. destruct H as [H|H]; [apply Nin; rewrite flat_map_app; apply in_or_app; auto|].
          apply in_app_or in H. destruct H as [H|H]; [|exact (Ni H)]. destruct (Ids1 i H) as [H'|H']; [|lia]. apply Nin. rewrite flat_map_app. apply in_or_app. right. cbn [flat_map]. apply in_or_app. auto.
        - rewrite flat_map_app. cbn [flat_map].
          assert (G : forall a b c : list nat, NoDup (a ++ c) -> NoDup b -> (forall j, In j b -> ~ In j a /\ ~ In j c) -> NoDup (a ++ b ++ c)).
          { clear. induction a; intros b c Hac Hb D; cbn in *.
            - induction b; [exact Hac|]. cbn. inversion Hb; subst. constructor; [|apply IHb; [assumption|intros j Hj; apply D; right; exact Hj]].
              intros H. apply in_app_or in H. destruct H as [H|H]; [exact (H1 H)|]. apply (proj2 (D a (or_introl eq_refl))), H.
            - inversion Hac; subst. constructor.
              + intros H. apply in_app_or in H. destruct H as [H|H]; [apply H1, in_or_app; auto|]. apply in_app_or in H. destruct H as [H|H]; [destruct (D a H) as [Q _]; apply Q; left; reflexivity|]. apply H1, in_or_app; auto.
              + apply IHa; [assumption|exact Hb|]. intros j Hj. destruct (D j Hj) as [Q1 Q2]. split; [intros Q; apply Q1; right; exact Q|exact Q2]. }
          apply G; [exact NN|exact N1|]. intros j Hj. split; [|apply DD, Hj]. destruct (Ids1 j Hj) as [H|H]; [apply Disj1, H|]. intros Q. apply Bd in Q. lia. }
      destruct IH as (h' & rest' & E & Cs & Hi' & Rd' & Rr2 & N' & L' & Fr' & Ids').
      { intros t Ht. apply REC. right. exact Ht. }
      { rewrite AA. exact Hi1. }
      { rewrite AA. eapply fits_len; [|exact Fi]. rewrite !app_length. reflexivity. }
      { apply Forall_app. split; [apply Forall_forall; intros t Ht; apply KEEP; auto|constructor; [exact R1|constructor]]. }
      { apply Forall_forall. intros t Ht. apply KEEP. auto. }
      { rewrite AA. apply Nnew.
        - clear - Nfl'. revert Nfl'. generalize (flat_map (@ids P F) dn). intros a. induction a; cbn; intros H; [apply nd_l in H; exact H|].
          inversion H; subst. constructor; [|apply IHa; assumption]. intros Q. apply H2. apply in_app_or in Q. apply in_or_app. destruct Q; [auto|]. right. apply in_or_app. auto.
        - intros j Hj Q. destruct (Ids1 j Hj) as [H|H]; [exact (proj2 (Disj2 j Q) H)|]. apply Br in Q. lia.
        - intros Q. apply Nin. rewrite flat_map_app. apply in_or_app. right. cbn [flat_map]. apply in_or_app. auto. }
      { intros t Ht. apply Hh. right. exact Ht. }
      rewrite AA in Hi', N'. exists h', (c1 :: rest'). split; [exact E|]. split; [constructor; assumption|]. split; [exact Hi'|].
      apply Forall_app in Rd'. destruct Rd' as [Rd1 Rd2]. split; [exact Rd1|]. split; [constructor; [inversion Rd2; assumption|exact Rr2]|]. split; [exact N'|]. split; [lia|]. split.
      + intros j Hj Hn. rewrite Fr'; [|lia|intros [Q|Q]; apply Hn; [left; exact Q|right; cbn [flat_map]; apply in_or_app; right; exact Q]].
        apply Fr1; [exact Hj|intros ->; apply Hn; left; reflexivity|]. intros Q. apply Hn. right. cbn [flat_map]. apply in_or_app. left. exact Q.
      + intros j Hj. cbn [flat_map] in *. apply in_app_or in Hj. destruct Hj as [Hj|Hj].
        * destruct (Ids1 j Hj) as [Q|Q]; [left; apply in_or_app; auto|right; lia].
        * destruct (Ids' j Hj) as [Q|Q]; [left; apply in_or_app; auto|right; lia].
  Qed.

  Theorem convert_ok : forall (t : tree), is_lin t = false -> forall fuel (h : heap), rep h t -> NoDup (ids t) -> height t <= fuel ->
    exists h' t', map_links fresh fuel h (root t) = Ok h' /\ root t' = root t /\ converted fresh h t t' h'.
  Proof.
    induction t as [i l k IH] using tree_ind2. intros NL fuel h R N Hh. destruct fuel as [|fuel]; [cbn in Hh; lia|].
    cbn [height] in Hh. apply rep_inv in R. destruct R as (A & B & C). cbn [ids] in N.
    destruct (@loop_ok fuel i l k [] h) as (h' & k' & E & Cs & Hi & _ & Rk & N' & L & Fr & Ids).
    { intros t Ht Hl h0 R0 N0 H0. rewrite Forall_forall in IH. apply IH; assumption. }
    { exact A. } { exact B. } { constructor. } { exact C. } { exact N. }
    { intros t Ht. apply (@height_kid k t fuel Ht). lia. }
    exists h', (T i l k'). cbn [map_links root]. rewrite A. rewrite kids_of_node by (rewrite map_length; exact B). rewrite map_length.
    split; [exact E|]. split; [reflexivity|]. split; [constructor; [exact NL|exact Cs]|]. split.
    { constructor; [exact Hi| |exact Rk]. eapply fits_len; [|exact B]. exact (f2_len Cs). }
    split; [exact L|]. split; [exact N'|]. split.
    - intros j Hj Hn. apply Fr; assumption.
    - intros j Hj. cbn [ids] in *. destruct Hj as [<-|Hj]; [left; left; reflexivity|]. destruct (Ids j Hj) as [Q|Q]; [left; right; exact Q|right; exact Q].
  Qed.

  (** A linear link is never changed itself, nor are the attributes of a policy. *)
  Definition stable (n n' : node P F) : Prop :=
    match n with
    | NLinear _ _ _ _ | NLeaf => n' = n
    | NPolicy _ attrs => exists kids', n' = NPolicy kids' attrs
    | _ => True
    end.
  Lemma stable_refl : forall n, stable n n.
  Proof. intros []; cbn; eauto. Qed.
  Lemma stable_trans : forall a b c, stable a b -> stable b c -> stable a c.
  Proof.
    intros a b c H1 H2. destruct a; cbn in *; try exact I; subst; cbn in *; try assumption.
    destruct H1 as [k ->]. exact H2.
  Qed.
  Lemma set_kid_stable : forall (nd : node P F) k c c' nd', set_kid nd k c c' = Ok nd' -> stable nd nd'.
  Proof.
    intros [] k c c' nd' H; cbn in *; try discriminate; try exact I. injection H as <-. eauto.
  Qed.
  Definition grows (h h' : heap) : Prop := forall j nd, nth_error h j = Some nd -> exists nd', nth_error h' j = Some nd' /\ stable nd nd'.
  Lemma loop_grows : forall rec, (forall h i h', rec h i = Ok h' -> grows h h') ->
    forall n k i h h', kid_loop fresh rec n k i h = Ok h' -> grows h h'.
  Proof.
    intros rec REC. induction n; intros k i h h' H.
    - injection H as <-. intros j nd E. exists nd. split; [exact E|apply stable_refl].
    - cbn [kid_loop] in H. destruct (nth_error h i) as [nd|] eqn:Ei; [|discriminate]. destruct (nth_error (kids_of nd) k) as [c|]; [|discriminate].
      destruct (nth_error h c) as [cn|] eqn:Ec; [|discriminate].
      assert (CASE : (exists h1, grows h h1 /\ kid_loop fresh rec n (S k) i h1 = Ok h')).
      { assert (ALT : forall x, (let! h1 := rec h c in kid_loop fresh rec n (S k) i h1) = Ok x -> exists h1, grows h h1 /\ kid_loop fresh rec n (S k) i h1 = Ok x).
        { intros x Hx. destruct (rec h c) as [h1|] eqn:Er; cbn [bind] in Hx; [|discriminate]. exists h1. split; [apply (REC _ _ _ Er)|exact Hx]. }
        destruct cn as [a o b w| | | | | |]; try (apply ALT; exact H).
        unfold make_noisy in H. destruct (set_kid nd k c (S (S (List.length h)))) as [nd'|] eqn:Es; cbn [bind] in H; [|discriminate].
        eexists. split; [|exact H]. intros j nj Ej.
        assert (Lj : j < List.length h) by (apply nth_error_Some; congruence).
        destruct (Nat.eq_dec j i) as [->|Hne].
        - rewrite Ei in Ej. injection Ej as <-. exists nd'. split; [apply upd_same; rewrite app_length; lia|apply (set_kid_stable _ _ _ _ Es)].
        - exists nj. split; [rewrite upd_other by exact Hne; rewrite nth_error_app1 by exact Lj; exact Ej|apply stable_refl]. }
      destruct CASE as (h1 & G1 & H1). pose proof (IHn _ _ _ _ H1) as G2. intros j nj Ej. destruct (G1 j nj Ej) as (n1 & E1 & S1). destruct (G2 j n1 E1) as (n2 & E2 & S2).
      exists n2. split; [exact E2|eapply stable_trans; eassumption].
  Qed.
  Lemma map_grows : forall fuel h i h', map_links fresh fuel h i = Ok h' -> grows h h'.
  Proof.
    induction fuel; intros h i h' H; [discriminate|]. cbn [map_links] in H. destruct (nth_error h i); [|discriminate].
    eapply loop_grows; [exact IHfuel|exact H].
  Qed.

  (** A policy that reads plain attributes is not affected. *)
  Lemma policy_unaffected : forall i attrs k fuel (h : heap), rep h (T i (LPolicy attrs) k) -> NoDup (ids (T i (LPolicy attrs) k)) -> height (T i (@LPolicy P F attrs) k) <= fuel ->
    exists h' kids', to_factorized_noisy fresh fuel h i = Ok h' /\ nth_error h' i = Some (NPolicy kids' attrs) /\
      forall a x y z w, In a attrs -> nth_error h a = Some (NLinear x y z w) -> nth_error h' a = Some (NLinear x y z w).
  Proof.
    intros i attrs k fuel h R N Hh. destruct (@convert_ok (T i (LPolicy attrs) k) eq_refl fuel h R N Hh) as (h' & t' & E & _ & _).
    pose proof (map_grows _ _ _ E) as G. pose proof (rep_inv R) as (A & _ & _). cbn [node_of] in A. destruct (G _ _ A) as (n' & En & Sn). destruct Sn as [kids' ->].
    exists h', kids'. split; [exact E|]. split; [exact En|]. intros a x y z w _ Ha. destruct (G _ _ Ha) as (n2 & E2 & S2). cbn in S2. subst. exact E2.
  Qed.
  Lemma bare_linear : forall fuel (h : heap) i a b c w, nth_error h i = Some (NLinear a b c w) -> to_factorized_noisy fresh (S fuel) h i = Ok h.
  Proof. intros fuel h i a b c w E. unfold to_factorized_noisy. cbn [map_links]. rewrite E. reflexivity. Qed.

  (** Conversions of trees without noisy layers. *)
  Lemma conv_layers : forall (t t' : tree), conv fresh t t' -> noisy_layers t = [] -> List.length (noisy_layers t') = List.length (linear_layers t).
  Proof.
    induction t as [i l k IH] using tree_ind2. intros t' C NN. inversion C as [? a b c w z m s|? ? ? k' NL Cs]; subst; [reflexivity|].
    cbn [noisy_layers linear_layers] in *. destruct l; cbn [app] in *; try discriminate;
    (clear C NL; revert k' Cs; induction k as [|u k IHk]; intros k' Cs; inversion Cs as [|? u' ? k2 Cu Ck]; subst; [reflexivity|];
     cbn [flat_map] in *; apply app_eq_nil in NN; destruct NN as [N1 N2]; inversion IH; subst; rewrite !app_length; f_equal; [auto|apply IHk; assumption]).
  Qed.
  Lemma conv_params : forall (t t' : tree) (h' : heap), conv fresh t t' -> rep h' t' -> noisy_layers t = [] ->
    forall z, In z (noisy_layers t') -> exists m s, noisy_params h' z = Ok (fresh m, fresh s).
  Proof.
    induction t as [i l k IH] using tree_ind2. intros t' h' C R NN z Hz. inversion C as [? a b c w z' m s|? ? ? k' NL Cs]; subst.
    - cbn in Hz. destruct Hz as [<-|[]]. exists m, s. apply rep_inv in R. destruct R as (A & _ & Rk). unfold noisy_params. rewrite A. cbn [node_of map root nth].
      inversion Rk as [|? ? R1 Rk2]; subst. inversion Rk2 as [|? ? R2 _]; subst. apply rep_inv in R1. apply rep_inv in R2.
      destruct R1 as (A1 & _). destruct R2 as (A2 & _). rewrite A1, A2. reflexivity.
    - cbn [noisy_layers] in *. apply rep_inv in R. destruct R as (_ & _ & Rk).
      assert (Hz' : In z (flat_map (@noisy_layers P F) k')) by (destruct l; cbn [app] in *; try discriminate; exact Hz).
      assert (NN' : flat_map (@noisy_layers P F) k = []) by (destruct l; cbn [app] in *; try discriminate; exact NN).
      clear C NL Hz NN. revert k' Cs Rk Hz'. induction k as [|u k IHk]; intros k' Cs Rk Hz; inversion Cs as [|? u' ? k2 Cu Ck]; subst; [destruct Hz|].
      cbn [flat_map] in *. apply app_eq_nil in NN'. destruct NN' as [N1 N2]. inversion IH; subst. inversion Rk; subst. apply in_app_or in Hz. destruct Hz as [Hz|Hz]; [eauto|]. apply (IHk H2 N2 k2); assumption.
  Qed.
  (** The second conversion reaches the inside of the noisy layers. *)
  Lemma conv_twice : forall (t1 t2 : tree) (h2 : heap), conv fresh t1 t2 -> rep h2 t2 ->
    forall z, In z (noisy_layers t1) -> (forall i o b k, In (T i (LNoisy o b) k) (subtrees t1) -> Forall (fun t => is_lin t = true) k) -> noisy_params h2 z = Raise AttributeError.
  Proof.
    induction t1 as [i l k IH] using tree_ind2. intros t2 h2 C R z Hz OKs. inversion C as [? a b c w z' m s|? ? ? k' NL Cs]; subst; [destruct Hz|].
    cbn [noisy_layers] in Hz. apply in_app_or in Hz. destruct Hz as [Hz|Hz].
    - destruct l as [|o b| | | | |]; cbn in Hz; try contradiction. destruct Hz as [Hz|[]]. subst.
      specialize (OKs z o b k (or_introl eq_refl)). apply rep_inv in R. destruct R as (A & B & Rk). cbn [fits] in B.
      destruct k' as [|k1 [|k2 [|]]]; cbn in B; try discriminate. inversion Cs as [|u ? ku ? C1 Cs2]; subst. inversion OKs as [|? ? L1 _]; subst.
      inversion C1 as [? ? ? ? ? z1 m1 s1|? ? ? ? NL1]; subst; [|congruence].
      unfold noisy_params. rewrite A. cbn [node_of map root nth]. inversion Rk as [|? ? R1 _]; subst. apply rep_inv in R1. destruct R1 as (A1 & _). rewrite A1. reflexivity.
    - apply rep_inv in R. destruct R as (_ & _ & Rk). clear C NL. 
      assert (OK' : forall u, In u k -> forall i o b kk, In (T i (LNoisy o b) kk) (subtrees u) -> Forall (fun t => is_lin t = true) kk).
      { intros u Hu i0 o b kk H. apply (OKs i0 o b kk). cbn [subtrees]. right. apply in_flat_map. exists u. auto. }
      clear OKs. revert k' Cs Rk Hz OK'. induction k as [|u k IHk]; intros k' Cs Rk Hz OK'; inversion Cs as [|? u' ? k2 Cu Ck]; subst; [destruct Hz|].
      cbn [flat_map] in *. inversion IH; subst. inversion Rk; subst. apply in_app_or in Hz. destruct Hz as [Hz|Hz].
      + apply (H1 u' h2 Cu); auto. intros i0 o b kk. apply OK'. left. reflexivity.
      + apply (IHk H2 k2); try assumption. intros u0 Hu0. apply OK'. right. exact Hu0.
  Qed.

  Lemma conv_inner : forall (t t' : tree), conv fresh t t' -> noisy_layers t = [] ->
    forall i o b k, In (T i (LNoisy o b) k) (subtrees t') -> Forall (fun t => is_lin t = true) k.
  Proof.
    induction t as [i l k IH] using tree_ind2. intros t' C NN i0 o b kk H. inversion C as [? a b' c w z m s|? ? ? k' NL Cs]; subst.
    - cbn in H. destruct H as [H|[H|[H|[]]]]; try discriminate. injection H as <- <- <- <-. repeat constructor.
    - cbn [subtrees] in H. destruct H as [H|H].
      + injection H as <- -> <-. cbn in NN. discriminate.
      + assert (NN' : flat_map (@noisy_layers P F) k = []) by (cbn [noisy_layers] in NN; apply app_eq_nil in NN; apply NN).
        clear C NL NN. revert k' Cs H. induction k as [|u k IHk]; intros k' Cs H; inversion Cs as [|? u' ? k2 Cu Ck]; subst; [destruct H|].
        cbn [flat_map] in *. apply app_eq_nil in NN'. destruct NN' as [N1 N2]. inversion IH; subst. apply in_app_or in H. destruct H as [H|H]; [eauto|]. apply (IHk H3 N2 k2); assumption.
  Qed.
  Lemma conv_height : forall (t t' : tree), conv fresh t t' -> height t' <= S (height t).
  Proof.
    induction t as [i l k IH] using tree_ind2. intros t' C. inversion C as [? a b' c w z m s|? ? ? k' NL Cs]; subst; [cbn; lia|].
    cbn [height]. apply le_n_S. clear C NL. revert k' Cs. induction k as [|u k IHk]; intros k' Cs; inversion Cs as [|? u' ? k2 Cu Ck]; subst; cbn [fold_right]; [lia|].
    inversion IH; subst. specialize (H1 _ Cu). specialize (IHk H2 _ Ck). lia.
  Qed.
  Lemma conv_is_lin : forall (t t' : tree), conv fresh t t' -> is_lin t' = false.
  Proof. intros t t' C. inversion C; subst; [reflexivity|assumption]. Qed.

  Lemma convert_params : forall (t : tree), is_lin t = false -> noisy_layers t = [] -> forall fuel (h : heap), rep h t -> NoDup (ids t) -> height t <= fuel ->
    exists h' t', to_factorized_noisy fresh fuel h (root t) = Ok h' /\ root t' = root t /\ rep h' t' /\
      List.length (noisy_layers t') = List.length (linear_layers t) /\
      forall z, In z (noisy_layers t') -> exists m s, noisy_params h' z = Ok (fresh m, fresh s).
  Proof.
    intros t NL NN fuel h R N Hh. destruct (@convert_ok t NL fuel h R N Hh) as (h' & t' & E & Rt & C & R' & _). exists h', t'.
    split; [exact E|]. split; [exact Rt|]. split; [exact R'|]. split; [apply conv_layers; assumption|]. intros z Hz. eapply conv_params; eassumption.
  Qed.
  Lemma convert_twice : forall (t : tree), is_lin t = false -> noisy_layers t = [] -> forall fuel (h : heap), rep h t -> NoDup (ids t) -> S (height t) <= fuel ->
    exists h1 h2 t1, to_factorized_noisy fresh fuel h (root t) = Ok h1 /\ rep h1 t1 /\ root t1 = root t /\ List.length (noisy_layers t1) = List.length (linear_layers t) /\
      to_factorized_noisy fresh fuel h1 (root t) = Ok h2 /\ forall z, In z (noisy_layers t1) -> noisy_params h2 z = Raise AttributeError.
  Proof.
    intros t NL NN fuel h R N Hh. assert (Hh1 : height t <= fuel) by lia. destruct (@convert_ok t NL fuel h R N Hh1) as (h1 & t1 & E & Rt & C & R1 & _ & N1 & _).
    pose proof (conv_height C) as Hc. assert (Hh2 : height t1 <= fuel) by lia. destruct (@convert_ok t1 (conv_is_lin C) fuel h1 R1 N1 Hh2) as (h2 & t2 & E2 & Rt2 & C2 & R2 & _).
    exists h1, h2, t1. split; [exact E|]. split; [exact R1|]. split; [exact Rt|]. split; [apply conv_layers; assumption|]. rewrite Rt in E2. split; [exact E2|].
    intros z Hz. apply (conv_twice C2 R2 z Hz). apply (conv_inner C NN).
  Qed.
End Conv.

Local Open Scope R_scope.
Lemma noise_sq : forall r, noise_function r * noise_function r = Rabs r.
Proof.
  intros r. unfold noise_function. destruct (Rlt_dec r 0); [rewrite Rmult_opp_opp|]; apply sqrt_sqrt, Rabs_pos.
Qed.
Lemma noise_odd : forall r, noise_function (- r) = - noise_function r.
Proof.
  intros r. unfold noise_function. rewrite Rabs_Ropp. destruct (Rlt_dec r 0), (Rlt_dec (- r) 0); try lra.
  assert (r = 0) by lra. subst. rewrite Rabs_R0, sqrt_0. lra.
Qed.
Lemma noise_sign : forall r, 0 <= r * noise_function r.
Proof.
  intros r. unfold noise_function. pose proof (sqrt_pos (Rabs r)). destruct (Rlt_dec r 0).
  - replace (r * - sqrt (Rabs r)) with ((- r) * sqrt (Rabs r)) by ring. apply Rmult_le_pos; lra.
  - apply Rmult_le_pos; lra.
Qed.
Lemma forward_ok : forall n mu sigma r x i, same_bias mu sigma ->
  noisy_forward n mu sigma r x i = linear n (lp_W mu) (lp_b mu) x i + noise_function (r (n + i)%nat) * linear n (lp_W sigma) (lp_b sigma) (fun j => noise_function (r j) * x j) i.
Proof.
  intros n mu sigma r x i SB. unfold noisy_forward, linear, same_bias in *.
  assert (Q : forall e m, sum_below m (fun j => (lp_W sigma i j * (e * noise_function (r j)) + lp_W mu i j) * x j) =
     sum_below m (fun j => lp_W mu i j * x j) + e * sum_below m (fun j => lp_W sigma i j * (noise_function (r j) * x j))).
  { clear. intros e. induction m; [unfold sum_below; cbn; ring|]. cbn [sum_below]. rewrite IHm. ring. }
  cbv zeta. rewrite (Q (noise_function (r (n + i)%nat))). destruct (lp_b mu), (lp_b sigma); try contradiction; ring.
Qed.
Lemma linear_ext : forall n W b x y i, (forall j, (j < n)%nat -> x j = y j) -> linear n W b x i = linear n W b y i.
Proof. intros n W b x y i H. unfold linear. f_equal. apply below_ext. intros j Hj. rewrite H by exact Hj. reflexivity. Qed.
Lemma mean_ok : forall E n mu sigma x i, averaging E -> (forall f, E (fun r => f (flip (n + i) r)) = E f) -> same_bias mu sigma ->
  E (fun r => noisy_forward n mu sigma r x i) = linear n (lp_W mu) (lp_b mu) x i.
Proof.
  intros E n mu sigma x i (EX & CO & AD & SC) SYM SB.
  set (f := fun r : nat -> R => noise_function (r (n + i)%nat) * linear n (lp_W sigma) (lp_b sigma) (fun j => noise_function (r j) * x j) i).
  rewrite (EX _ (fun r => linear n (lp_W mu) (lp_b mu) x i + f r)) by (intros r; apply forward_ok, SB).
  rewrite AD, CO. assert (Z : E f = 0).
  { pose proof (SYM f) as Q.
    rewrite (EX (fun r => f (flip (n + i)%nat r)) (fun r => (-1) * f r)) in Q.
    - rewrite SC in Q. lra.
    - intros r. unfold f, flip. rewrite Nat.eqb_refl, noise_odd.
      rewrite (@linear_ext n (lp_W sigma) (lp_b sigma) (fun j => noise_function (if Nat.eqb j (n + i) then - r j else r j) * x j) (fun j => noise_function (r j) * x j) i).
      + ring.
      + intros j Hj. destruct (Nat.eqb_spec j (n + i)); [lia|reflexivity]. }
  rewrite Z. ring.
Qed.
Lemma scaling_weight_ok : forall scale n_out n_in i, (0 < n_in)%nat -> sum_below n_in (fun j => scaling_weight scale n_out n_in i j * scaling_weight scale n_out n_in i j) = scale * scale.
Proof.
  intros scale n_out n_in i H. unfold scaling_weight. assert (0 < INR n_in) by (apply lt_0_INR; lia). assert (0 < sqrt (INR n_in)) by (apply sqrt_lt_R0; assumption).
  assert (Q : forall n c, sum_below n (fun _ => c) = INR n * c).
  { clear. induction n; intros c; [unfold sum_below; cbn; ring|]. cbn [sum_below]. rewrite IHn, S_INR. ring. }
  rewrite Q. replace (INR n_in) with (sqrt (INR n_in) * sqrt (INR n_in)) at 1 by (apply sqrt_sqrt; lra). field. lra.
Qed.
Lemma scaling_bias_ok : forall scale n_out, (0 < n_out)%nat -> sum_below n_out (fun j => scaling_bias scale n_out j * scaling_bias scale n_out j) = scale * scale.
Proof. intros scale n_out H. apply (scaling_weight_ok scale 0 0 H). Qed.
