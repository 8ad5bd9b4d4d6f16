(** Proofs about sharing parameters between processes. *)
From Coq Require Import List Arith String Bool Lia.
From Verif Require Import Base.PyBase Model.Sharing Spec.SharingSpec.
Import ListNotations.

Lemma nth_error_ext_list : forall X (a b : list X), (forall i, nth_error a i = nth_error b i) -> a = b.
Proof.
  induction a as [|x a IH]; intros [|y b] H; [reflexivity|specialize (H 0); discriminate|specialize (H 0); discriminate|].
  pose proof (H 0) as E. injection E as ->. f_equal. apply IH. intros i. exact (H (S i)).
Qed.

Section Facts.
  Variable V : Type.
  Implicit Types (l : link V) (m : mem V).

  (** ** Association lists *)
  Lemma assoc_in : forall X (l : list (string * X)) n x, assoc n l = Some x -> In (n, x) l.
  Proof. induction l as [|[m y] l IH]; cbn; [discriminate|]. intros n x. destruct (string_dec n m); [intros [= ->]; subst; auto|auto]. Qed.
  Lemma in_assoc : forall X (l : list (string * X)) n x, NoDup (map fst l) -> In (n, x) l -> assoc n l = Some x.
  Proof.
    induction l as [|[m y] l IH]; cbn; [tauto|]. intros n x ND [E|I]; inversion ND as [|? ? N1 N2]; subst.
    - injection E as -> ->. destruct (string_dec n n); congruence.
    - destruct (string_dec n m) as [->|]; [|auto]. exfalso. apply N1. apply (in_map fst) in I. exact I.
  Qed.
  Lemma assoc_put : forall X (l : list (string * X)) n x y, assoc n l = Some y -> assoc n (put n x l) = Some x /\ (forall k, k <> n -> assoc k (put n x l) = assoc k l).
  Proof.
    induction l as [|[m z] l IH]; cbn; [discriminate|]. intros n x y. destruct (string_dec n m) as [->|N]; cbn.
    - intros _. destruct (string_dec m m); [|congruence]. split; [reflexivity|]. intros k K. destruct (string_dec k m); congruence.
    - intros H. destruct (string_dec n m); [congruence|]. destruct (IH n x y H) as (A & B). split; [exact A|]. intros k K. rewrite B by exact K. reflexivity.
  Qed.
  Lemma passoc_in : forall X (l : list (path * X)) n x, passoc n l = Some x -> In (n, x) l.
  Proof. induction l as [|[m y] l IH]; cbn; [discriminate|]. intros n x. destruct (path_eq_dec n m); [intros [= ->]; subst; auto|auto]. Qed.
  Lemma in_passoc : forall X (l : list (path * X)) n x, NoDup (map fst l) -> In (n, x) l -> passoc n l = Some x.
  Proof.
    induction l as [|[m y] l IH]; cbn; [tauto|]. intros n x ND [E|I]; inversion ND as [|? ? N1 N2]; subst.
    - injection E as -> ->. destruct (path_eq_dec n n); congruence.
    - destruct (path_eq_dec n m) as [->|]; [|auto]. exfalso. apply N1. apply (in_map fst) in I. exact I.
  Qed.
  Lemma passoc_none : forall X (l : list (path * X)) n, passoc n l = None <-> ~ In n (map fst l).
  Proof.
    induction l as [|[m y] l IH]; cbn; [tauto|]. intros n. destruct (path_eq_dec n m) as [->|N].
    - split; [discriminate|]. intros H. exfalso. apply H. auto.
    - rewrite IH. intuition congruence.
  Qed.
  Lemma NoDup_app' : forall X (a b : list X), NoDup a -> NoDup b -> (forall x, In x a -> ~ In x b) -> NoDup (a ++ b).
  Proof.
    induction a as [|x a IH]; intros b A B D; [exact B|]. inversion A; subst. cbn. constructor.
    - rewrite in_app_iff. intros [I|I]; [auto|]. exact (D x (or_introl eq_refl) I).
    - apply IH; auto. intros y I. apply D. right. exact I.
  Qed.

  (** ** Links *)
  Section Ind.
    Variable P : link V -> Prop.
    Hypothesis H : forall slots kids, Forall (fun c => P (snd c)) kids -> P (Lk slots kids).
    Fixpoint link_ind2 (l : link V) : P l :=
      match l with
      | Lk slots kids => @H slots kids ((fix go (ks : list (string * link V)) : Forall (fun c => P (snd c)) ks :=
          match ks with [] => @Forall_nil _ _ | c :: ks => @Forall_cons _ _ c ks (link_ind2 (snd c)) (go ks) end) kids)
      end.
  End Ind.
  Lemma kind_eqb_eq : forall a b, kind_eqb a b = true <-> a = b.
  Proof. intros [] []; cbn; split; congruence. Qed.
  Lemma named_nonempty : forall k l p v, In (p, v) (named k l) -> p <> [].
  Proof.
    intros k [slots kids] p v I. cbn in I. apply in_app_iff in I. destruct I as [I|I]; apply in_flat_map in I; destruct I as (x & _ & I).
    - destruct (kind_eqb _ _); [|contradiction]. destruct I as [E|[]]. injection E as <- _. discriminate.
    - apply in_map_iff in I. destruct I as (pv & E & _). injection E as <- _. discriminate.
  Qed.
  Lemma named_get : forall k l, wf l -> forall p v, In (p, v) (named k l) <-> get p l = Some (k, v).
  Proof.
    intros k. apply (link_ind2 (fun l => wf l -> forall p v, In (p, v) (named k l) <-> get p l = Some (k, v))).
    intros slots kids IH W p v. inversion W as [? ? N1 N2 FW]; subst. rewrite Forall_forall in IH, FW. cbn [named]. rewrite in_app_iff, !in_flat_map. split.
    - intros [(s & I & J)|(c & I & J)].
      + destruct (kind_eqb (fst (snd s)) k) eqn:K; [|contradiction]. apply kind_eqb_eq in K. destruct J as [E|[]]. injection E as <- <-.
        cbn [get]. apply in_assoc; [exact N1|]. destruct s as [n [k' v']]; cbn in *. subst. exact I.
      + apply in_map_iff in J. destruct J as ([q u] & E & J). injection E as <- <-. cbn [fst snd]. pose proof (named_nonempty _ _ _ _ J) as NE.
        apply (IH c I (FW c I)) in J. cbn [get]. destruct q as [|q0 q]; [congruence|].
        rewrite (in_assoc _ kids (fst c) (snd c) N2) by (destruct c; exact I). exact J.
    - intros G. destruct p as [|n rest]; [discriminate|]. cbn [get] in G. destruct rest as [|r rest].
      + left. exists (n, (k, v)). split; [apply assoc_in, G|]. cbn. destruct k; cbn; auto.
      + right. destruct (assoc n kids) as [c|] eqn:A; [|discriminate]. apply assoc_in in A. exists (n, c). split; [exact A|].
        apply in_map_iff. exists (r :: rest, v). split; [reflexivity|]. apply (IH (n, c) A (FW (n, c) A)). exact G.
  Qed.
  Lemma NoDup_map_cons : forall (n : string) (l : list path), NoDup l -> NoDup (map (cons n) l).
  Proof.
    intros n. induction l as [|x xs IH]; intros H; [constructor|]. inversion H; subst. cbn. constructor; [|auto].
    rewrite in_map_iff. intros (y & E & I). injection E as ->. contradiction.
  Qed.
  Lemma flat_nodup : forall k (kids : list (string * link V)), NoDup (map fst kids) -> Forall (fun c => NoDup (map fst (named k (snd c)))) kids ->
    NoDup (map fst (flat_map (fun c => map (fun pv : path * value V => (fst c :: fst pv, snd pv)) (named k (snd c))) kids)).
  Proof.
    intros k. induction kids as [|c kids IH]; intros N F; [constructor|]. cbn [flat_map]. inversion N as [|? ? N1 N2]; subst. inversion F as [|? ? F1 F2]; subst.
    rewrite map_app. apply NoDup_app'.
    - rewrite map_map. cbn [fst]. replace (map (fun x : path * value V => fst c :: fst x) (named k (snd c))) with (map (cons (fst c)) (map fst (named k (snd c)))) by (rewrite map_map; reflexivity).
      apply NoDup_map_cons, F1.
    - apply IH; assumption.
    - intros x I J. apply in_map_iff in I. destruct I as (pv & <- & I). apply in_map_iff in I. destruct I as (qv & <- & I). cbn [fst] in J.
      apply in_map_iff in J. destruct J as (rv & E & J). apply in_flat_map in J. destruct J as (c' & I' & J). apply in_map_iff in J. destruct J as (tv & <- & J).
      cbn [fst] in E. injection E as E _. apply N1. rewrite <- E. apply in_map, I'.
  Qed.
  Lemma named_nodup : forall k l, wf l -> NoDup (map fst (named k l)).
  Proof.
    intros k. apply (link_ind2 (fun l => wf l -> NoDup (map fst (named k l)))). intros slots kids IH W. inversion W as [? ? N1 N2 FW]; subst. cbn [named].
    rewrite map_app. apply NoDup_app'.
    - clear - N1. induction slots as [|[n [k' v]] slots IH]; [constructor|]. inversion N1 as [|? ? A B]; subst. cbn [flat_map fst snd].
      destruct (kind_eqb k' k); [|cbn; auto]. cbn. constructor; [|auto]. rewrite in_map_iff. intros (x & E & I). apply in_flat_map in I.
      destruct I as (s & I & J). destruct (kind_eqb _ _); [|contradiction]. destruct J as [<-|[]]. cbn in E. injection E as E. apply A. cbn. rewrite <- E. apply in_map, I.
    - apply flat_nodup; [exact N2|]. rewrite Forall_forall in *. intros c I. apply IH; auto.
    - intros x I J. apply in_map_iff in I. destruct I as (s & <- & I). apply in_flat_map in I. destruct I as (t & I & I'). destruct (kind_eqb _ _); [|contradiction].
      destruct I' as [<-|[]]. cbn in J. apply in_map_iff in J. destruct J as (u & E & J). apply in_flat_map in J. destruct J as (c & _ & J). apply in_map_iff in J.
      destruct J as (w & <- & J). cbn in E. injection E as _ E. destruct w as [wp wv]. cbn in E. subst. exact (named_nonempty _ _ _ _ J eq_refl).
  Qed.
  Lemma get_set_at : forall p v l k u, get p l = Some (k, u) ->
    exists l', set_at p v l = Ok l' /\ get p l' = Some (k, v) /\ forall q, q <> p -> get q l' = get q l.
  Proof.
    induction p as [|n rest IH]; intros v [slots kids] k u G; [discriminate|]. cbn [get] in G. cbn [set_at]. destruct rest as [|r rest].
    - rewrite G. exists (Lk (put n (k, v) slots) kids). split; [reflexivity|]. destruct (assoc_put _ slots n (k, v) _ G) as (A & B). split; [exact A|].
      intros [|q [|q' qs]] N; try reflexivity. cbn [get]. apply B. congruence.
    - destruct (assoc n kids) as [c|] eqn:A; [|discriminate]. destruct (IH v c k u G) as (c' & S1 & S2 & S3). rewrite S1. cbn [bind].
      exists (Lk slots (put n c' kids)). split; [reflexivity|]. destruct (assoc_put _ kids n c' _ A) as (B1 & B2). split; [cbn [get]; rewrite B1; exact S2|].
      intros [|q [|q' qs]] N; try reflexivity. cbn [get]. destruct (string_dec q n) as [->|D].
      + rewrite B1, A. exact (S3 (q' :: qs) ltac:(congruence)).
      + rewrite B2 by exact D. reflexivity.
  Qed.

  (** ** set_shared_params *)
  Lemma in_remove' : forall (l : list path) p q, In q (remove path_eq_dec p l) <-> In q l /\ q <> p.
  Proof. intros. split; [apply in_remove|]. intros (A & B). apply in_in_remove; assumption. Qed.
  Lemma set_all_ok : forall m d es l rem, NoDup (map fst es) -> (forall p v, In (p, v) es -> exists k u, get p l = Some (k, u)) ->
    (forall p v s, In (p, v) es -> passoc p d = Some s -> frombuffer m s (item_of v) (size_of v) = Ok (mk_arr (Shared s) (item_of v) (size_of v))) ->
    exists l' rem', set_all m d es l rem = Ok (l', rem') /\
      (forall p v, In (p, v) es -> forall k u, get p l = Some (k, u) -> get p l' = match passoc p d with Some s => Some (k, as_shared s v) | None => Some (k, u) end) /\
      (forall p, ~ In p (map fst es) -> get p l' = get p l) /\
      (forall p, In p rem' <-> In p rem /\ ~ (In p (map fst es) /\ passoc p d <> None)).
  Proof.
    intros m d. induction es as [|[p v] es IH]; intros l rem N G F; cbn [set_all].
    - exists l, rem. split; [reflexivity|]. cbn. repeat split; try tauto; intuition.
    - cbn [map fst] in N. inversion N as [|? ? N1 N2]; subst. destruct (passoc p d) as [s|] eqn:A.
      + rewrite (F p v s (or_introl eq_refl) A). cbn [bind]. destruct (G p v (or_introl eq_refl)) as (k & u & Gp).
        destruct (get_set_at p (as_shared s v) l k u Gp) as (l1 & S1 & S2 & S3). unfold as_shared in S1. rewrite S1. cbn [bind].
        destruct (IH l1 (remove path_eq_dec p rem) N2) as (l' & rem' & R & H1 & H2 & H3).
        * intros q w I. destruct (G q w (or_intror I)) as (k' & u' & Gq). exists k', u'. rewrite S3; [exact Gq|]. intros ->. apply N1. apply (in_map fst) in I. exact I.
        * intros q w s' I. apply F. right. exact I.
        * exists l', rem'. split; [exact R|]. split; [|split].
          -- intros q w [E|I] k' u' Gq.
             ++ injection E as <- <-. rewrite A. rewrite H2 by exact N1. rewrite S2. congruence.
             ++ apply (H1 q w I). rewrite S3; [exact Gq|]. intros ->. apply N1. apply (in_map fst) in I. exact I.
          -- intros q I. cbn in I. rewrite H2 by tauto. apply S3. intuition congruence.
          -- intros q. rewrite H3, in_remove'. cbn [map fst In]. destruct (path_eq_dec q p) as [->|D].
             ++ split; [tauto|]. intros (_ & C). exfalso. apply C. rewrite A. split; [left; reflexivity|discriminate].
             ++ split.
                ** intros ((I1 & _) & I2). split; [exact I1|]. intros ([E|E] & C); [congruence|]. apply I2. split; assumption.
                ** intros (I1 & I2). split; [split; assumption|]. intros (E & C). apply I2. split; [right; exact E|exact C].
      + destruct (IH l rem N2) as (l' & rem' & R & H1 & H2 & H3).
        * intros q w I. apply (G q w). right. exact I.
        * intros q w s' I. apply F. right. exact I.
        * exists l', rem'. split; [exact R|]. split; [|split].
          -- intros q w [E|I] k' u' Gq; [|apply (H1 q w I k' u' Gq)]. injection E as <- <-. rewrite A. rewrite H2 by exact N1. exact Gq.
          -- intros q I. cbn in I. apply H2. tauto.
          -- intros q. rewrite H3. cbn [map fst In]. split; intros (I1 & I2); (split; [exact I1|]); intros (E & C); apply I2; (split; [|exact C]); [|right; exact E].
             destruct E as [<-|E]; [congruence|exact E].
  Qed.
  Theorem set_shared_get : forall m l d, wf l -> fits m d l ->
    ((forall p, passoc p d <> None -> get p l <> None) ->
     exists l', set_shared_params m l d = Ok l' /\
       forall p, get p l' = match get p l with Some (k, v) => match passoc p d with Some s => Some (k, as_shared s v) | None => Some (k, v) end | None => None end) /\
    ((exists p, passoc p d <> None /\ get p l = None) -> set_shared_params m l d = Raise AssertionError).
  Proof.
    intros m l d W F. pose proof (named_get Param l W) as NG1. pose proof (named_get Persistent l W) as NG2.
    destruct (set_all_ok m d (named Param l) l (map fst d) (named_nodup _ _ W)) as (l1 & r1 & S1 & A1 & A2 & A3).
    { intros p v I. exists Param, v. apply NG1, I. }
    { intros p v s I P. apply NG1 in I. exact (F p Param v s I P). }
    assert (NOT1 : forall p v, In (p, v) (named Persistent l) -> ~ In p (map fst (named Param l))).
    { intros p v I J. apply in_map_iff in J. destruct J as ([q w] & E & J). cbn in E. subst q. apply NG2 in I. apply NG1 in J. congruence. }
    destruct (set_all_ok m d (named Persistent l) l1 r1 (named_nodup _ _ W)) as (l2 & r2 & S2 & B1 & B2 & B3).
    { intros p v I. exists Persistent, v. rewrite A2 by exact (NOT1 p v I). apply NG2, I. }
    { intros p v s I P. apply NG2 in I. exact (F p Persistent v s I P). }
    assert (COV : forall p, get p l <> None -> In p (map fst (named Param l)) \/ In p (map fst (named Persistent l))).
    { intros p N. destruct (get p l) as [[[] v]|] eqn:G; [left|right|congruence]; [apply NG1 in G|apply NG2 in G]; apply (in_map fst) in G; exact G. }
    assert (NONE : forall p k, get p l = None -> ~ In p (map fst (named k l))).
    { intros p k G J. apply in_map_iff in J. destruct J as ([q w] & E & J). cbn in E. subst q. apply (named_get k l W) in J. congruence. }
    unfold set_shared_params. rewrite S1. cbn [bind]. rewrite S2. cbn [bind]. split.
    - intros C. destruct r2 as [|q r2].
      + exists l2. split; [reflexivity|]. intros p. destruct (get p l) as [[[] v]|] eqn:G.
        * apply NG1 in G as I. rewrite B2; [apply (A1 p v I Param v G)|]. intros J. apply in_map_iff in J. destruct J as ([q w] & E & J). cbn in E. subst q. apply NG2 in J. congruence.
        * apply NG2 in G as I. apply (B1 p v I Persistent v). rewrite A2 by exact (NOT1 p v I). exact G.
        * rewrite B2 by (apply NONE, G). rewrite A2 by (apply NONE, G). exact G.
      + exfalso. pose proof (proj1 (B3 q) (or_introl eq_refl)) as (I1 & I2). apply A3 in I1. destruct I1 as (I0 & I1).
        assert (Pq : passoc q d <> None) by (intros E; apply passoc_none in E; contradiction).
        destruct (COV q (C q Pq)); [apply I1|apply I2]; split; assumption.
    - intros (p & P & G). assert (I : In p r2).
      { apply B3. split; [apply A3; split|].
        - destruct (in_dec path_eq_dec p (map fst d)) as [Y|Y]; [exact Y|]. exfalso. apply P, passoc_none, Y.
        - intros (J & _). exact (NONE p Param G J).
        - intros (J & _). exact (NONE p Persistent G J). }
      destruct r2; [contradiction|reflexivity].
  Qed.

  (** ** Extraction *)
  Lemma buf_ext : forall m ext a b, buf_at m a = Some b -> buf_at (mk_mem (m_shared m ++ ext) (m_priv m)) a = Some b.
  Proof. intros m ext [i|i] b H; cbn in *; [exact H|]. rewrite nth_error_app1; [exact H|]. apply nth_error_Some. congruence. Qed.
  Lemma valid_ext : forall m ext v, valid m v -> valid (mk_mem (m_shared m ++ ext) (m_priv m)) v /\ read (mk_mem (m_shared m ++ ext) (m_priv m)) v = read m v.
  Proof.
    intros m ext v (I & H). unfold valid, read. destruct v as [a|i x].
    - destruct H as (b & H1 & H2). rewrite H1. rewrite (buf_ext m ext _ _ H1). split; [split; [exact I|exists b; split; [reflexivity|exact H2]]|reflexivity].
    - split; [split; auto|reflexivity].
  Qed.
  Lemma read_len : forall m v, valid m v -> length (read m v) = size_of v.
  Proof. intros m [a|i x] (I & H); cbn; [|reflexivity]. destruct H as (b & -> & H). tauto. Qed.
  Lemma extract_ok : forall es m, (forall p v, In (p, v) es -> valid m v) ->
    exists ext, fst (extract_all m es) = mk_mem (m_shared m ++ ext) (m_priv m) /\ length ext = length es /\
      map fst (snd (extract_all m es)) = map fst es /\
      (forall i p v, nth_error es i = Some (p, v) -> nth_error (snd (extract_all m es)) i = Some (p, length (m_shared m) + i) /\ nth_error ext i = Some (mk_buf (item_of v) (read m v))).
  Proof.
    induction es as [|[p v] es IH]; intros m H; cbn [extract_all].
    - exists []. cbn. rewrite app_nil_r. destruct m. split; [reflexivity|]. split; [reflexivity|]. split; [reflexivity|]. intros [|i]; discriminate.
    - set (b := mk_buf (item_of v) (read m v)). destruct (IH (mk_mem (m_shared m ++ [b]) (m_priv m))) as (ext & E1 & E2 & E3 & E4).
      { intros q w I. apply valid_ext. apply (H q w). right. exact I. }
      destruct (extract_all (mk_mem (m_shared m ++ [b]) (m_priv m)) es) as [m2 d] eqn:X. cbn [fst snd m_shared m_priv] in *.
      exists (b :: ext). split; [rewrite E1, <- app_assoc; reflexivity|]. split; [cbn; congruence|]. split; [cbn; congruence|].
      intros [|i] q w K; cbn [nth_error] in *.
      + injection K as <- <-. rewrite Nat.add_0_r. split; reflexivity.
      + destruct (E4 i q w K) as (A & B). split.
        * rewrite A. rewrite app_length. cbn [length]. do 2 f_equal. lia.
        * rewrite B. f_equal. f_equal. apply nth_error_In in K. apply (valid_ext m [b]). apply (H q w). right. exact K.
  Qed.
  Lemma extract_all_paths : forall l, wf l -> NoDup (map fst (named Param l ++ named Persistent l)).
  Proof.
    intros l W. rewrite map_app. apply NoDup_app'; [apply named_nodup, W|apply named_nodup, W|].
    intros p I J. apply in_map_iff in I. destruct I as ([q v] & E & I). apply in_map_iff in J. destruct J as ([q' v'] & E' & J). cbn in *. subst.
    apply (named_get Param l W) in I. apply (named_get Persistent l W) in J. congruence.
  Qed.
  Theorem share_ok : forall m l, wf l -> (forall p k v, get p l = Some (k, v) -> valid m v) ->
    exists ext l' d, share_params m l = Ok (mk_mem (m_shared m ++ ext) (m_priv m), l', d) /\
      (forall p k v, get p l = Some (k, v) -> exists s, passoc p d = Some s /\ get p l' = Some (k, as_shared s v) /\
         length (m_shared m) <= s /\ nth_error (m_shared m ++ ext) s = Some (mk_buf (item_of v) (read m v))) /\
      (forall p, get p l = None -> get p l' = None /\ passoc p d = None) /\
      (forall p q s, passoc p d = Some s -> passoc q d = Some s -> p = q).
  Proof.
    intros m l W VAL. set (es := named Param l ++ named Persistent l).
    assert (INES : forall p v, In (p, v) es <-> exists k, get p l = Some (k, v)).
    { intros p v. unfold es. rewrite in_app_iff, (named_get Param l W), (named_get Persistent l W). split; [intros [G|G]; eauto|]. intros ([] & G); auto. }
    destruct (extract_ok es m) as (ext & E1 & E2 & E3 & E4). { intros p v I. apply INES in I. destruct I as (k & G). exact (VAL p k v G). }
    pose proof (extract_all_paths l W) as ND. fold es in ND. destruct (extract_all m es) as [m' d] eqn:X. cbn [fst snd] in *. subst m'.
    assert (NDd : NoDup (map fst d)) by (rewrite E3; exact ND).
    assert (POS : forall p k v, get p l = Some (k, v) -> exists i, passoc p d = Some (length (m_shared m) + i) /\ nth_error ext i = Some (mk_buf (item_of v) (read m v)) /\ nth_error es i = Some (p, v)).
    { intros p k v G. assert (I : In (p, v) es) by (apply INES; eauto). apply In_nth_error in I. destruct I as (i & I). destruct (E4 i p v I) as (A & B).
      exists i. split; [apply in_passoc; [exact NDd|]; apply nth_error_In in A; exact A|]. split; [exact B|exact I]. }
    assert (BACK : forall p s, passoc p d = Some s -> exists i v k, s = length (m_shared m) + i /\ nth_error es i = Some (p, v) /\ get p l = Some (k, v)).
    { intros p s P. apply passoc_in in P. apply In_nth_error in P. destruct P as (i & P).
      assert (L : i < length es). { rewrite <- (map_length fst es), <- E3, map_length. apply nth_error_Some. congruence. }
      destruct (nth_error es i) as [[q v]|] eqn:Q; [|apply nth_error_None in Q; lia]. destruct (E4 i q v Q) as (A & _). rewrite A in P. injection P as -> <-.
      apply nth_error_In in Q as I. apply INES in I. destruct I as (k & G). exists i, v, k. auto. }
    set (m' := mk_mem (m_shared m ++ ext) (m_priv m)).
    assert (FIT : fits m' d l).
    { intros p k v s G P. destruct (POS p k v G) as (i & P' & B & _). rewrite P' in P. injection P as <-. unfold frombuffer, m'. cbn [m_shared].
      rewrite nth_error_app2 by lia. replace (length (m_shared m) + i - length (m_shared m)) with i by lia. rewrite B. cbn [b_item b_data].
      rewrite (read_len m v (VAL p k v G)). destruct (VAL p k v G) as (IT & _). rewrite Nat.mul_comm, Nat.mod_mul, Nat.div_mul by lia. rewrite !Nat.eqb_refl. reflexivity. }
    destruct (proj1 (set_shared_get m' l d W FIT)) as (l' & S & GET).
    { intros p P. destruct (passoc p d) as [s|] eqn:Q; [|congruence]. destruct (BACK p s Q) as (i & v & k & _ & _ & G). congruence. }
    exists ext, l', d. split; [unfold share_params, extract_params; fold es; rewrite X; fold m'; rewrite S; reflexivity|]. split; [|split].
    - intros p k v G. destruct (POS p k v G) as (i & P & B & _). exists (length (m_shared m) + i). split; [exact P|]. split; [rewrite GET, G, P; reflexivity|]. split; [lia|].
      rewrite nth_error_app2 by lia. replace (length (m_shared m) + i - length (m_shared m)) with i by lia. exact B.
    - intros p G. split; [rewrite GET, G; reflexivity|]. destruct (passoc p d) as [s|] eqn:Q; [|reflexivity]. destruct (BACK p s Q) as (i & v & k & _ & _ & G'). congruence.
    - intros p q s P Q. destruct (BACK p s P) as (i & v & k & -> & A & _). destruct (BACK q _ Q) as (j & v' & k' & EQ & B & _). assert (i = j) by lia. subst j. congruence.
  Qed.

  (** Any link built by the same code can be attached to the same buffers. *)
  Theorem sync_ok : forall m l l2, wf l -> wf l2 -> (forall p k v, get p l = Some (k, v) -> valid m v) -> same_shape l l2 ->
    exists m' l' d l2', share_params m l = Ok (m', l', d) /\ set_shared_params m' l2 d = Ok l2' /\ forall p, get p l2' = get p l'.
  Proof.
    intros m l l2 W W2 VAL SH. destruct (share_ok m l W VAL) as (ext & l' & d & S & A & B & C). set (m' := mk_mem (m_shared m ++ ext) (m_priv m)) in *.
    assert (SHP : forall p k v, get p l2 = Some (k, v) -> exists u, get p l = Some (k, u) /\ item_of u = item_of v /\ size_of u = size_of v).
    { intros p k v G. specialize (SH p). unfold shape_at in SH. rewrite G in SH. destruct (get p l) as [[k' u]|]; cbn in SH; [|discriminate]. injection SH as -> E1 E2. eauto. }
    assert (FIT : fits m' d l2).
    { intros p k v s G P. destruct (SHP p k v G) as (u & Gu & <- & <-). destruct (A p k u Gu) as (s' & P' & _ & _ & NB). rewrite P in P'. injection P' as <-.
      unfold frombuffer, m'. cbn [m_shared]. rewrite NB. cbn [b_item b_data]. rewrite (read_len m u (VAL p k u Gu)). destruct (VAL p k u Gu) as (IT & _).
      rewrite Nat.mul_comm, Nat.mod_mul, Nat.div_mul by lia. rewrite !Nat.eqb_refl. reflexivity. }
    destruct (proj1 (set_shared_get m' l2 d W2 FIT)) as (l2' & S2 & GET).
    { intros p P. destruct (get p l) as [[k v]|] eqn:G.
      - specialize (SH p). unfold shape_at in SH. rewrite G in SH. destruct (get p l2); [discriminate|]. discriminate SH.
      - destruct (B p G) as (_ & N). congruence. }
    exists m', l', d, l2'. split; [exact S|]. split; [exact S2|]. intros p. rewrite GET. destruct (get p l2) as [[k v]|] eqn:G.
    - destruct (SHP p k v G) as (u & Gu & E1 & E2). destruct (A p k u Gu) as (s & P & G' & _). rewrite P, G'. unfold as_shared. rewrite E1, E2. reflexivity.
    - destruct (get p l) as [[k v]|] eqn:Gl; [|symmetry; apply B, Gl]. specialize (SH p). unfold shape_at in SH. rewrite Gl, G in SH. discriminate.
  Qed.

  (** ** Optimizer states *)
  Lemma states_extract_ok : forall es m, (forall p a, In (p, a) es -> valid m (VArr V a)) ->
    exists ext, fst (extract_states m es) = mk_mem (m_shared m ++ ext) (m_priv m) /\ length ext = length es /\
      map fst (snd (extract_states m es)) = map fst es /\
      (forall i p a, nth_error es i = Some (p, a) -> nth_error (snd (extract_states m es)) i = Some (p, length (m_shared m) + i) /\ nth_error ext i = Some (mk_buf 4 (read m (VArr V a)))).
  Proof.
    induction es as [|[p v] es IH]; intros m H; cbn [extract_states].
    - exists []. cbn. rewrite app_nil_r. destruct m. split; [reflexivity|]. split; [reflexivity|]. split; [reflexivity|]. intros [|i]; discriminate.
    - set (b := mk_buf 4 (read m (VArr V v))). destruct (IH (mk_mem (m_shared m ++ [b]) (m_priv m))) as (ext & E1 & E2 & E3 & E4).
      { intros q w I. apply valid_ext. apply (H q w). right. exact I. }
      destruct (extract_states (mk_mem (m_shared m ++ [b]) (m_priv m)) es) as [m2 d] eqn:X. cbn [fst snd m_shared m_priv] in *.
      exists (b :: ext). split; [rewrite E1, <- app_assoc; reflexivity|]. split; [cbn; congruence|]. split; [cbn; congruence|].
      intros [|i] q w K; cbn [nth_error] in *.
      + injection K as <- <-. rewrite Nat.add_0_r. split; reflexivity.
      + destruct (E4 i q w K) as (A & B). split.
        * rewrite A. rewrite app_length. cbn [length]. do 2 f_equal. lia.
        * rewrite B. f_equal. f_equal. apply nth_error_In in K. apply (valid_ext m [b]). apply (H q w). right. exact K.
  Qed.
  Lemma set_states_ok : forall m d es, (forall p a, In (p, a) es -> exists s, passoc p d = Some s /\ frombuffer m s (a_item a) (a_size a) = Ok (mk_arr (Shared s) (a_item a) (a_size a))) ->
    exists es', set_shared_states m d es = Ok es' /\ forall i p a, nth_error es i = Some (p, a) -> exists s, passoc p d = Some s /\ nth_error es' i = Some (p, mk_arr (Shared s) (a_item a) (a_size a)).
  Proof.
    intros m d. induction es as [|[p a] es IH]; intros H; cbn [set_shared_states].
    - exists []. split; [reflexivity|]. intros [|i]; discriminate.
    - destruct (H p a (or_introl eq_refl)) as (s & P & F). rewrite P, F. cbn [bind]. destruct IH as (es' & R & K). { intros q b I. apply H. right. exact I. }
      rewrite R. cbn [bind]. eexists. split; [reflexivity|]. intros [|i] q b E; cbn in *; [injection E as <- <-; eauto|eauto].
  Qed.
  Lemma set_states_bad : forall m d es, (forall p a, In (p, a) es -> exists s, passoc p d = Some s /\ (frombuffer m s (a_item a) (a_size a) = Ok (mk_arr (Shared s) (a_item a) (a_size a)) \/ frombuffer m s (a_item a) (a_size a) = Raise ValueError)) ->
    (exists p a s, In (p, a) es /\ passoc p d = Some s /\ frombuffer m s (a_item a) (a_size a) = Raise ValueError) -> set_shared_states m d es = Raise ValueError.
  Proof.
    intros m d. induction es as [|[p a] es IH]; intros H (q & b & s & I & P & F); [contradiction|]. cbn [set_shared_states].
    destruct (H p a (or_introl eq_refl)) as (s' & P' & [F'|F']); rewrite P', F'; cbn [bind]; [|reflexivity]. rewrite IH; [reflexivity| |].
    - intros r c J. apply H. right. exact J.
    - destruct I as [E|I]; [|eauto 6]. injection E as -> ->. rewrite P in P'. injection P' as <-. congruence.
  Qed.
  Theorem states_ok : forall m es, NoDup (map fst es) -> (forall p a, In (p, a) es -> valid m (VArr V a)) ->
    ((forall p a, In (p, a) es -> a_item a = 4) ->
      exists ext es' d, share_states m es = Ok (mk_mem (m_shared m ++ ext) (m_priv m), es', d) /\
       forall i p a, nth_error es i = Some (p, a) -> nth_error es' i = Some (p, mk_arr (Shared (length (m_shared m) + i)) (a_item a) (a_size a)) /\
         nth_error (m_shared m ++ ext) (length (m_shared m) + i) = Some (mk_buf 4 (read m (VArr V a)))) /\
    ((exists p a, In (p, a) es /\ a_item a <> 4 /\ 0 < a_size a) -> share_states m es = Raise ValueError).
  Proof.
    intros m es ND VAL. destruct (states_extract_ok es m VAL) as (ext & E1 & E2 & E3 & E4). unfold share_states.
    destruct (extract_states m es) as [m' d] eqn:X. cbn [fst snd] in *. subst m'. set (m' := mk_mem (m_shared m ++ ext) (m_priv m)).
    assert (NDd : NoDup (map fst d)) by (rewrite E3; exact ND).
    assert (POS : forall i p a, nth_error es i = Some (p, a) -> passoc p d = Some (length (m_shared m) + i) /\ nth_error (m_shared m ++ ext) (length (m_shared m) + i) = Some (mk_buf 4 (read m (VArr V a)))).
    { intros i p a I. destruct (E4 i p a I) as (A & B). split; [apply in_passoc; [exact NDd|]; apply nth_error_In in A; exact A|].
      rewrite nth_error_app2 by lia. replace (length (m_shared m) + i - length (m_shared m)) with i by lia. exact B. }
    assert (FB : forall i p a, nth_error es i = Some (p, a) -> frombuffer m' (length (m_shared m) + i) (a_item a) (a_size a) =
        if ((4 * a_size a) mod a_item a =? 0) && ((4 * a_size a) / a_item a =? a_size a) then Ok (mk_arr (Shared (length (m_shared m) + i)) (a_item a) (a_size a)) else Raise ValueError).
    { intros i p a I. unfold frombuffer, m'. cbn [m_shared]. rewrite (proj2 (POS i p a I)). cbn [b_item b_data]. pose proof (VAL p a (nth_error_In _ _ I)) as VA.
      rewrite (read_len m _ VA). cbn [size_of]. reflexivity. }
    split.
    - intros I4. destruct (set_states_ok m' d es) as (es' & S & K).
      { intros p a I. pose proof (I4 p a I) as Q. pose proof (VAL p a I) as (IT & _). apply In_nth_error in I. destruct I as (i & I). exists (length (m_shared m) + i). split; [apply (POS i p a I)|].
        rewrite (FB i p a I), Q. rewrite Nat.mul_comm, Nat.mod_mul, Nat.div_mul, !Nat.eqb_refl by lia. reflexivity. }
      exists ext, es', d. split; [fold m'; rewrite S; reflexivity|]. intros i p a I. destruct (POS i p a I) as (P & B). split; [|exact B].
      destruct (K i p a I) as (s & P' & N). rewrite P in P'. injection P' as <-. exact N.
    - intros (p & a & I & Q & Z). fold m'. rewrite (set_states_bad m' d es); [reflexivity| |].
      + intros q b J. apply In_nth_error in J. destruct J as (j & J). exists (length (m_shared m) + j). split; [apply (POS j q b J)|]. rewrite (FB j q b J). destruct (_ && _); auto.
      + pose proof (VAL p a I) as (IT & _). cbn in IT. pose proof I as I'. apply In_nth_error in I. destruct I as (i & I). exists p, a, (length (m_shared m) + i). split; [exact I'|]. split; [apply (POS i p a I)|].
        rewrite (FB i p a I). destruct (_ && _) eqn:T; [|reflexivity]. exfalso. apply andb_true_iff in T. destruct T as (T1 & T2). apply Nat.eqb_eq in T1, T2.
        pose proof (Nat.div_mod (4 * a_size a) (a_item a) ltac:(lia)) as DM. rewrite T1, T2 in DM. nia.
  Qed.

  (** ** Processes *)
  Lemma upd_map : forall X Y (f : X -> Y) (l : list X) i x, map f (upd l i x) = upd (map f l) i (f x).
  Proof. induction l as [|y l IH]; intros [|i] x; cbn; try reflexivity. rewrite IH. reflexivity. Qed.
  Lemma upd_past : forall X (l : list X) i x, length l <= i -> upd l i x = l.
  Proof. induction l as [|y l IH]; intros [|i] x L; cbn in *; try reflexivity; [lia|]. rewrite IH by lia. reflexivity. Qed.
  Lemma nth_upd : forall X (l : list X) i j x, nth_error (upd l i x) j = if Nat.eqb i j then match nth_error l i with Some _ => Some x | None => None end else nth_error l j.
  Proof.
    induction l as [|y l IH]; intros [|i] [|j] x; cbn; try reflexivity; [destruct (Nat.eqb i j); reflexivity|]. apply IH.
  Qed.
  Lemma set_data_map : forall (bs : list (buffer V)) i x, map (@b_data V) (set_data bs i x) = upd (map (@b_data V) bs) i x.
  Proof.
    intros bs i x. unfold set_data. destruct (nth_error bs i) as [b|] eqn:E; [apply upd_map|]. revert i E. induction bs as [|b bs IH]; intros [|i] E; cbn in *; try reflexivity; [discriminate|]. rewrite <- IH by exact E. reflexivity.
  Qed.
  Lemma set_data_nth : forall (bs : list (buffer V)) i j x, option_map (@b_data V) (nth_error (set_data bs i x) j) = if Nat.eqb i j then option_map (fun _ => x) (nth_error bs i) else option_map (@b_data V) (nth_error bs j).
  Proof.
    intros bs i j x. unfold set_data. destruct (nth_error bs i) as [b|] eqn:E.
    - rewrite nth_upd, E. destruct (Nat.eqb i j); reflexivity.
    - destruct (Nat.eqb_spec i j) as [->|N]; [rewrite E|]; reflexivity.
  Qed.

  (** All the processes' links have the array of the [i]-th path in the same shared buffer. *)
  Definition attached (paths : list path) (links : nat -> link V) (where_ : nat -> nat) (shared : list (buffer V)) : Prop :=
    NoDup paths /\ (forall i p, nth_error paths i = Some p -> where_ i < length shared /\
      forall q, exists k a, get p (links q) = Some (k, VArr V a) /\ a_loc a = Shared (where_ i)) /\
    (forall i j, i < length paths -> j < length paths -> where_ i = where_ j -> i = j).
  Definition related (paths : list path) (links : nat -> link V) (where_ : nat -> nat) (w : world V) (s : common V) : Prop :=
    attached paths links where_ (w_shared w) /\ (forall q, views paths links w q = c_global s) /\ (forall q, locals w q = c_local s q).
  Lemma views_nth : forall paths links where_ w, attached paths links where_ (w_shared w) -> forall q i p, nth_error paths i = Some p ->
    Some (read_at (mem_of w q) (links q) p) = option_map (@b_data V) (nth_error (w_shared w) (where_ i)).
  Proof.
    intros paths links where_ w (N & A & D) q i p H. destruct (A i p H) as (L & B). destruct (B q) as (k & a & G & E). unfold read_at. rewrite G. unfold read. rewrite E. cbn.
    destruct (nth_error (w_shared w) (where_ i)) eqn:X; [reflexivity|]. apply nth_error_None in X. lia.
  Qed.
  Lemma set_data_len : forall (bs : list (buffer V)) i x, length (set_data bs i x) = length bs.
  Proof. intros. unfold set_data. destruct (nth_error bs i); [|reflexivity]. clear. revert i. induction bs as [|y bs IH]; intros [|i]; cbn; try reflexivity. rewrite IH. reflexivity. Qed.
  Lemma step_related : forall paths links where_ w s o, related paths links where_ w s -> related paths links where_ (step paths links w o) (common_step s o).
  Proof.
    intros paths links where_ w s o (AT & VW & LC). unfold step, common_step. rewrite VW, LC. set (x := o_fun o (c_global s) (c_local s (o_proc o))). set (q0 := o_proc o).
    destruct (o_target o) as [i|a].
    - destruct (nth_error paths i) as [p|] eqn:Hp.
      + destruct AT as (ND & A & D). destruct (A i p Hp) as (L & B). destruct (B q0) as (k & ar & G & E). rewrite G, E. cbn [write].
        assert (AT' : attached paths links where_ (set_data (w_shared w) (where_ i) x)).
        { split; [exact ND|]. split; [|exact D]. intros j p' Hj. rewrite set_data_len. apply A, Hj. }
        split; [exact AT'|]. split; [|exact LC]. intros q. cbn [c_global]. rewrite <- (VW q). unfold views. apply nth_error_ext_list. intros j.
        rewrite nth_error_map, nth_upd, !nth_error_map, Hp. cbn [option_map]. destruct (nth_error paths j) as [p'|] eqn:Hj.
        * pose proof (views_nth paths links where_ (mk_world (set_data (w_shared w) (where_ i) x) (w_priv w)) AT' q j p' Hj) as R1.
          pose proof (views_nth paths links where_ w (conj ND (conj A D)) q j p' Hj) as R2. cbn [w_shared] in R1. rewrite set_data_nth in R1.
          destruct (Nat.eqb_spec i j) as [->|NE].
          -- rewrite Nat.eqb_refl in R1. cbn [option_map]. rewrite R1. destruct (nth_error (w_shared w) (where_ j)) eqn:X; [reflexivity|]. apply nth_error_None in X. lia.
          -- destruct (Nat.eqb_spec (where_ i) (where_ j)) as [Ew|Nw].
             ++ exfalso. apply NE. apply D; [apply nth_error_Some; congruence|apply nth_error_Some; congruence|exact Ew].
             ++ cbn [option_map]. rewrite R1, <- R2. reflexivity.
        * destruct (Nat.eqb_spec i j) as [->|NE]; [congruence|reflexivity].
      + split; [exact AT|]. split; [|exact LC]. intros q. cbn [c_global]. rewrite VW. assert (L : length (c_global s) <= i). { rewrite <- (VW q). unfold views. rewrite map_length. apply nth_error_None, Hp. }
        symmetry. apply upd_past, L.
    - cbn [write]. split; [exact AT|]. split.
      + intros q. cbn [c_global]. rewrite <- (VW q). unfold views. apply map_ext_in. intros p I. apply In_nth_error in I. destruct I as (j & Hj).
        pose proof (views_nth paths links where_ w AT q j p Hj) as R2.
        pose proof (views_nth paths links where_ (mk_world (w_shared w) (fun r => if Nat.eqb r q0 then set_data (w_priv w q0) a x else w_priv w r)) AT q j p Hj) as R1.
        cbn [w_shared] in R1. rewrite <- R2 in R1. injection R1 as R1. exact R1.
      + intros q. unfold locals. cbn [w_priv c_local]. destruct (Nat.eqb_spec q q0) as [->|N]; [|apply LC]. rewrite set_data_map. f_equal. apply LC.
  Qed.
  Theorem run_related : forall paths links where_ ops w s, related paths links where_ w s -> related paths links where_ (run paths links w ops) (common_run s ops).
  Proof. intros paths links where_. induction ops as [|o ops IH]; intros w s R; [exact R|]. apply IH, step_related, R. Qed.

  Lemma set_all_shared : forall m1 m2 d es l rem, m_shared m1 = m_shared m2 -> set_all m1 d es l rem = set_all m2 d es l rem.
  Proof.
    intros m1 m2 d es l rem E. revert l rem. induction es as [|[p v] es IH]; intros l rem; cbn [set_all]; [reflexivity|]. destruct (passoc p d) as [s|]; [|apply IH].
    unfold frombuffer. rewrite E. destruct (nth_error (m_shared m2) s); [|reflexivity]. destruct (_ && _); [|reflexivity]. cbn [bind]. destruct (set_at _ _ l); [|reflexivity]. apply IH.
  Qed.
  Lemma set_shared_same : forall m1 m2 l d, m_shared m1 = m_shared m2 -> set_shared_params m1 l d = set_shared_params m2 l d.
  Proof.
    intros m1 m2 l d E. unfold set_shared_params. rewrite (set_all_shared m1 m2 d _ l _ E). destruct (set_all m2 d (named Param l) l (map fst d)) as [[l1 r1]|]; [|reflexivity]. cbn [bind].
    rewrite (set_all_shared m1 m2 d _ l1 _ E). reflexivity.
  Qed.
  Theorem shared_training : forall m l (others : nat -> link V), wf l -> (forall p k v, get p l = Some (k, v) -> valid m v) ->
    (forall q, wf (others q) /\ same_shape l (others q)) ->
    exists m' l' d, share_params m l = Ok (m', l', d) /\
      forall (privs : nat -> list (buffer V)) ops,
        let w0 := mk_world (m_shared m') privs in
        exists links, (forall q, set_shared_params (mem_of w0 q) (others q) d = Ok (links q)) /\
          let paths := map fst (named Param l ++ named Persistent l) in
          let s := common_run (mk_common (map (read_at m l) paths) (fun q => map (@b_data V) (privs q))) ops in
          forall q, views paths links (run paths links w0 ops) q = c_global s /\ locals (run paths links w0 ops) q = c_local s q.
  Proof.
    intros m l others W VAL OT. destruct (share_ok m l W VAL) as (ext & l' & d & SH & A & B & C). set (m' := mk_mem (m_shared m ++ ext) (m_priv m)) in *.
    exists m', l', d. split; [exact SH|]. intros privs ops w0. set (paths := map fst (named Param l ++ named Persistent l)).
    set (links := fun q => match set_shared_params m' (others q) d with Ok l2 => l2 | Raise _ => others q end).
    assert (LK : forall q, set_shared_params m' (others q) d = Ok (links q) /\ forall p, get p (links q) = get p l').
    { intros q. destruct (OT q) as (W2 & SS). destruct (sync_ok m l (others q) W W2 VAL SS) as (m1 & l1 & d1 & l2 & S1 & S2 & G). rewrite SH in S1. injection S1 as <- <- <-. unfold links. rewrite S2. split; [reflexivity|exact G]. }
    exists links. split. { intros q. rewrite (set_shared_same (mem_of w0 q) m' (others q) d eq_refl). apply LK. }
    intros paths' s q. unfold paths' in *. clear paths'. fold paths.
    assert (INP : forall p, In p paths -> exists k v, get p l = Some (k, v)).
    { intros p I. unfold paths in I. apply in_map_iff in I. destruct I as ([p' v] & E & I). cbn in E. subst p'. apply in_app_iff in I. destruct I as [I|I]; apply named_get in I; eauto. }
    set (where_ := fun i => match nth_error paths i with Some p => match passoc p d with Some s => s | None => 0 end | None => 0 end).
    assert (R : related paths links where_ w0 (mk_common (map (read_at m l) paths) (fun q => map (@b_data V) (privs q)))).
    { assert (AT : attached paths links where_ (w_shared w0)).
      { split; [apply extract_all_paths, W|]. split.
        - intros i p Hi. destruct (INP p (nth_error_In _ _ Hi)) as (k & v & G). destruct (A p k v G) as (s' & P & G' & _ & NB). unfold where_. rewrite Hi, P. split.
          + cbn. apply nth_error_Some. congruence.
          + intros q'. exists k, (mk_arr (Shared s') (item_of v) (size_of v)). split; [|reflexivity]. rewrite (proj2 (LK q') p). exact G'.
        - intros i j Li Lj E. unfold where_ in E. destruct (nth_error paths i) as [p|] eqn:Hi; [|apply nth_error_None in Hi; lia]. destruct (nth_error paths j) as [p'|] eqn:Hj; [|apply nth_error_None in Hj; lia].
          destruct (INP p (nth_error_In _ _ Hi)) as (k & v & G). destruct (A p k v G) as (s1 & P1 & _). destruct (INP p' (nth_error_In _ _ Hj)) as (k' & v' & G'). destruct (A p' k' v' G') as (s2 & P2 & _).
          rewrite P1, P2 in E. subst s2. pose proof (C p p' s1 P1 P2) as E. subst p'. apply (proj1 (NoDup_nth_error paths)); [apply extract_all_paths, W|exact Li|congruence]. }
      split; [exact AT|]. split; [|reflexivity]. intros q'. cbn [c_global]. apply map_ext_in. intros p I. apply In_nth_error in I as J. destruct J as (i & Hi).
      pose proof (views_nth paths links where_ w0 AT q' i p Hi) as X. destruct (INP p I) as (k & v & G). destruct (A p k v G) as (s' & P & _ & _ & NB). unfold where_ in X. rewrite Hi, P in X. cbn [w_shared w0] in X.
      unfold m' in X. cbn [m_shared] in X. rewrite NB in X. cbn in X. injection X as X. etransitivity; [exact X|]. unfold read_at. rewrite G. reflexivity. }
    pose proof (run_related paths links where_ ops w0 _ R) as (_ & RV & RL). split; [apply RV|apply RL].
  Qed.
  (** A parameter the shared collection does not mention silently stays private. *)
  Theorem unknown_private : forall m l d p kv, wf l -> fits m d l -> (forall p, passoc p d <> None -> get p l <> None) -> get p l = Some kv -> passoc p d = None ->
    exists l', set_shared_params m l d = Ok l' /\ get p l' = Some kv.
  Proof.
    intros m l d p [k v] W F C G P. destruct (proj1 (set_shared_get m l d W F) C) as (l' & S & H). exists l'. split; [exact S|]. rewrite H, G, P. reflexivity.
  Qed.
End Facts.
Theorem forked_seeds : forall rng (draw : rng -> nat * rng) parent n i j a b,
  nth_error (run_async_seeds draw parent n) i = Some a -> nth_error (run_async_seeds draw parent n) j = Some b -> a = b.
Proof.
  intros rng draw parent n i j a b H1 H2. unfold run_async_seeds in *. rewrite nth_error_map in H1, H2.
  destruct (nth_error (seq 0 n) i); [|discriminate]. destruct (nth_error (seq 0 n) j); [|discriminate]. cbn in *. congruence.
Qed.
Theorem own_seeds : forall rng (parent : rng) n, NoDup (train_async_seeds parent n) /\ length (train_async_seeds parent n) = n.
Proof. intros. unfold train_async_seeds. rewrite map_id, seq_length. split; [apply seq_NoDup|reflexivity]. Qed.

