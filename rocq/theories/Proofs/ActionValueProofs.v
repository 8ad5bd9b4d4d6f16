(** Proofs about discrete action values and dueling heads. *)
From Coq Require Import Reals List Arith Lia Lra.
From Verif Require Import Base.PyBase Model.Categorical Model.Distributions Model.Targets Model.ActionValue.
From Verif Require Import Spec.SumSpec Spec.TargetSpec Spec.DistributionSpec Spec.ActionValueSpec.
From Verif Require Import Proofs.RSumFacts Proofs.DistributionProofs Proofs.TargetProofs.
Import ListNotations.
Local Open Scope R_scope.

(** ** Greedy actions *)
Lemma argmax_first : forall l pre best m, nth_error pre best = Some m -> (forall x, In x pre -> x <= m) ->
  (forall j x, (j < best)%nat -> nth_error pre j = Some x -> x < m) ->
  first_greedy (pre ++ l) (Distributions.argmax_from (length pre) best m l).
Proof.
  induction l as [|y l IH]; intros pre best m B H F; [rewrite app_nil_r; exists m; auto|]. cbn [Distributions.argmax_from].
  assert (Lp : (best < length pre)%nat) by (apply nth_error_Some; congruence).
  replace (pre ++ y :: l) with ((pre ++ [y]) ++ l) by (rewrite <- app_assoc; reflexivity).
  replace (S (length pre)) with (length (pre ++ [y])) by (rewrite app_length; cbn; lia).
  destruct (Rlt_dec m y) as [L|L]; apply IH.
  - rewrite nth_error_app2, Nat.sub_diag by lia. reflexivity.
  - intros x I. apply in_app_iff in I. destruct I as [I|[<-|[]]]; [specialize (H x I); lra|lra].
  - intros j x J E. rewrite nth_error_app1 in E by lia. apply nth_error_In in E. specialize (H x E). lra.
  - rewrite nth_error_app1 by lia. exact B.
  - intros x I. apply in_app_iff in I. destruct I as [I|[<-|[]]]; [apply H, I|lra].
  - intros j x J E. rewrite nth_error_app1 in E by lia. exact (F j x J E).
Qed.
Lemma q_greedy_first : forall row, row <> [] -> first_greedy row (q_greedy row).
Proof.
  intros [|y l] NE; [congruence|]. apply (argmax_first l [y] 0 y eq_refl).
  - intros x [<-|[]]; lra.
  - intros j x J; lia.
Qed.
Lemma first_greedy_unique : forall row a b, first_greedy row a -> first_greedy row b -> a = b.
Proof.
  intros row a b (m & A1 & A2 & A3) (n & B1 & B2 & B3). destruct (Nat.lt_trichotomy a b) as [L|[L|L]]; [|exact L|].
  - specialize (B3 _ _ L A1). specialize (A2 n (nth_error_In _ _ B1)). lra.
  - specialize (A3 _ _ L B1). specialize (B2 m (nth_error_In _ _ A1)). lra.
Qed.
Lemma first_is_greedy : forall row a, first_greedy row a -> is_greedy a row.
Proof. intros row a (m & A & B & _). exists m. auto. Qed.

Lemma mapM_ok : forall X Y (f : X -> res Y) (P : X -> Y -> Prop) l, (forall x, In x l -> exists y, f x = Ok y /\ P x y) ->
  exists ys, mapM f l = Ok ys /\ Forall2 P l ys.
Proof.
  intros X Y f P l. induction l as [|x l IH]; intros H; [exists []; split; [reflexivity|constructor]|].
  destruct (H x (or_introl eq_refl)) as (y & Ey & Py). destruct IH as (ys & Es & Fs); [intros; apply H; right; assumption|].
  exists (y :: ys). cbn [mapM]. rewrite Ey. cbn [bind]. rewrite Es. split; [reflexivity|constructor; assumption].
Qed.
Lemma greedy_ok : forall q, (forall row, In row q -> row <> []) -> exists g, av_greedy q = Ok g /\ Forall2 first_greedy q g.
Proof.
  intros q NE. apply mapM_ok. intros row I. specialize (NE row I). exists (q_greedy row). split; [|apply q_greedy_first, NE].
  destruct row; [congruence|reflexivity].
Qed.

(** ** Selection *)
Lemma Forall2_len : forall X Y (P : X -> Y -> Prop) l l', Forall2 P l l' -> length l = length l'.
Proof. intros X Y P l l' F. induction F; cbn; congruence. Qed.
Lemma Forall2_nth : forall X Y (P : X -> Y -> Prop) l l', Forall2 P l l' -> forall i x y, nth_error l i = Some x -> nth_error l' i = Some y -> P x y.
Proof.
  intros X Y P l l' F. induction F as [|a b l l' H F IH]; intros [|i] x y; cbn; try discriminate.
  - intros [= <-] [= <-]. exact H.
  - apply IH.
Qed.
Lemma nth_Forall2 : forall X Y (P : X -> Y -> Prop) l l', length l = length l' ->
  (forall i x y, nth_error l i = Some x -> nth_error l' i = Some y -> P x y) -> Forall2 P l l'.
Proof.
  intros X Y P l. induction l as [|a l IH]; intros [|b l'] L H; try discriminate; constructor.
  - exact (H O a b eq_refl eq_refl).
  - apply IH; [cbn in L; lia|]. intros i x y. exact (H (S i) x y).
Qed.

Lemma pick_ok : forall X (rows : list (list X)) acts, valid_actions rows acts -> exists vs, pick_rows rows acts = Ok vs /\ selects rows acts vs.
Proof.
  intros X rows acts V. induction V as [|row a rows acts H V (vs & E & L1 & L2 & S)].
  - exists []. repeat split. intros [|i] row a; discriminate.
  - cbn [pick_rows]. destruct (nth_error row a) as [v|] eqn:N; [|apply nth_error_None in N; lia]. rewrite E. cbn [bind].
    exists (v :: vs). repeat split; cbn; try congruence. intros [|i] r b; cbn.
    + intros [= <-] [= <-]. exists v. auto.
    + apply S.
Qed.
Lemma pick_valid : forall X (rows : list (list X)) acts vs, length rows = length acts -> pick_rows rows acts = Ok vs -> valid_actions rows acts.
Proof.
  intros X rows. induction rows as [|row rows IH]; intros [|a acts] vs L E; try discriminate; [constructor|].
  cbn [pick_rows] in E. destruct (nth_error row a) as [v|] eqn:N; [|discriminate]. destruct (pick_rows rows acts) as [vs'|e] eqn:P; [|discriminate].
  constructor; [apply nth_error_Some; congruence|]. apply (IH acts vs'); [cbn in L; lia|exact P].
Qed.
Lemma select_ok : forall X (rows : list (list X)) acts, valid_actions rows acts ->
  exists vs, select_item rows acts = Ok vs /\ selects rows acts vs.
Proof. intros X rows acts V. unfold select_item. rewrite (Forall2_len _ _ _ _ _ V), Nat.eqb_refl. apply pick_ok, V. Qed.
Lemma select_iff : forall X (rows : list (list X)) acts, (exists vs, select_item rows acts = Ok vs) <-> valid_actions rows acts.
Proof.
  intros X rows acts. split.
  - intros (vs & E). unfold select_item in E. destruct (Nat.eqb_spec (length rows) (length acts)) as [L|L]; [|discriminate]. exact (pick_valid _ _ _ _ L E).
  - intros V. destruct (select_ok _ _ _ V) as (vs & E & _). eauto.
Qed.
Lemma greedy_valid : forall q g, Forall2 first_greedy q g -> valid_actions q g.
Proof. intros q g F. induction F as [|row a q g (m & H & _) F IH]; constructor; [apply nth_error_Some; congruence|exact IH]. Qed.
Lemma selects_max : forall q g m, Forall2 first_greedy q g -> selects q g m -> Forall2 (fun row v => is_maximum v row) q m.
Proof.
  intros q g m F (L1 & L2 & S). apply nth_Forall2; [congruence|]. intros i row v Ei Ev.
  destruct (nth_error g i) as [a|] eqn:G.
  - destruct (Forall2_nth _ _ _ _ _ F i _ _ Ei G) as (x & X1 & X2 & _). destruct (S i row a Ei G) as (v' & V1 & V2).
    assert (v = v') by congruence. assert (x = v') by congruence. subst. split; [exact (nth_error_In _ _ X1)|exact X2].
  - apply nth_error_None in G. assert (i < length q)%nat by (apply nth_error_Some; congruence). lia.
Qed.

Theorem discrete_max : forall q, (forall row, In row q -> row <> []) -> exists g m,
  av_greedy q = Ok g /\ av_max q = Ok m /\ Forall2 first_greedy q g /\ selects q g m /\ Forall2 (fun row v => is_maximum v row) q m.
Proof.
  intros q NE. destruct (greedy_ok q NE) as (g & G & F). destruct (select_ok _ q g (greedy_valid _ _ F)) as (m & M & S).
  exists g, m. unfold av_max. rewrite G. cbn [bind]. split; [reflexivity|]. split; [exact M|]. split; [exact F|]. split; [exact S|exact (selects_max _ _ _ F S)].
Qed.

Lemma zipr_nth : forall f a b i x y, nth_error a i = Some x -> nth_error b i = Some y -> nth_error (zipr f a b) i = Some (f x y).
Proof.
  intros f a. induction a as [|u a IH]; intros [|w b] [|i] x y; cbn; try discriminate.
  - intros [= ->] [= ->]. reflexivity.
  - apply IH.
Qed.
Lemma zipr_len : forall f a b, length a = length b -> length (zipr f a b) = length a.
Proof. intros f a. induction a as [|u a IH]; intros [|w b] L; cbn in *; try discriminate; auto. Qed.
Lemma nth_some : forall X (l : list X) i, (i < length l)%nat -> exists x, nth_error l i = Some x.
Proof. intros X l i H. destruct (nth_error l i) as [x|] eqn:E; [eauto|]. apply nth_error_None in E. lia. Qed.

Theorem discrete_advantage : forall q acts, (forall row, In row q -> row <> []) -> valid_actions q acts -> exists e adv,
  av_evaluate q acts = Ok e /\ selects q acts e /\ av_advantage q acts = Ok adv /\ length adv = length q /\
  forall i row a, nth_error q i = Some row -> nth_error acts i = Some a ->
    exists v qa mx, nth_error adv i = Some v /\ nth_error row a = Some qa /\ is_maximum mx row /\ v = qa - mx /\
    v <= 0 /\ (v = 0 <-> is_greedy a row).
Proof.
  intros q acts NE V. destruct (select_ok _ q acts V) as (e & E & Se). destruct (discrete_max q NE) as (g & m & G & M & F & S & Fm).
  exists e, (zipr Rminus e m). unfold av_advantage, av_evaluate. rewrite E. cbn [bind]. rewrite M. cbn [bind].
  destruct Se as (L1 & L2 & Se). pose proof (Forall2_len _ _ _ _ _ Fm) as L3.
  split; [reflexivity|]. split; [split; [exact L1|]; split; [exact L2|exact Se]|]. split; [reflexivity|]. split; [rewrite zipr_len; congruence|].
  intros i row a Hi Ha. destruct (Se i row a Hi Ha) as (qa & Q1 & Q2).
  assert (Li : (i < length q)%nat) by (apply nth_error_Some; congruence).
  destruct (nth_some _ m i) as (mx & Hm); [lia|]. pose proof (Forall2_nth _ _ _ _ _ Fm i _ _ Hi Hm) as Mx.
  exists (qa - mx), qa, mx. split; [apply zipr_nth; assumption|]. split; [exact Q2|]. split; [exact Mx|]. split; [reflexivity|].
  destruct Mx as (I & Mx). pose proof (Mx qa (nth_error_In _ _ Q2)) as Le. split; [lra|]. split.
  - intros Z. exists qa. split; [exact Q2|]. intros x Ix. specialize (Mx x Ix). lra.
  - intros (x & X1 & X2). assert (x = qa) by congruence. subst. specialize (X2 mx I). lra.
Qed.

Theorem double_advantage : forall q acts acts', valid_actions q acts -> valid_actions q acts' -> exists e e' d,
  selects q acts e /\ selects q acts' e' /\ av_double_advantage q acts acts' = Ok d /\ length d = length q /\
  forall i x y, nth_error e i = Some x -> nth_error e' i = Some y -> nth_error d i = Some (x - y).
Proof.
  intros q acts acts' V V'. destruct (select_ok _ q acts V) as (e & E & Se). destruct (select_ok _ q acts' V') as (e' & E' & Se').
  exists e, e', (zipr Rminus e e'). unfold av_double_advantage, av_evaluate. rewrite E. cbn [bind]. rewrite E'.
  split; [exact Se|]. split; [exact Se'|]. split; [reflexivity|]. destruct Se as (_ & L & _). destruct Se' as (_ & L' & _).
  split; [rewrite zipr_len; congruence|]. intros. apply zipr_nth; assumption.
Qed.

(** ** Boltzmann expectations *)
Lemma q_expectation_eq : forall row beta, q_expectation row beta = expectation (softmax (map (Rmult beta) row)) row.
Proof. intros. unfold q_expectation, expectation. apply zipr_total. Qed.
Lemma expectation_le : forall p v c, probability p -> length p = length v -> (forall x, In x v -> x <= c) -> expectation p v <= c.
Proof.
  intros p v c (P & T) L H. unfold expectation.
  assert (E : total_of (fun x => x) p = total_of (fun z : R * R => fst z) (combine p v)).
  { clear -L. revert v L. induction p as [|x p IH]; intros [|y v] L; try discriminate; [reflexivity|]. cbn [combine]. rewrite !tot_cons. rewrite (IH v); [reflexivity|cbn in L; lia]. }
  replace c with (c * total_of (fun z : R * R => fst z) (combine p v)) by (rewrite <- E, T; ring). rewrite <- tot_scale.
  apply tot_le. intros (a, b) I. cbn. specialize (P a (in_combine_l _ _ _ _ I)). specialize (H b (in_combine_r _ _ _ _ I)). nra.
Qed.
Lemma expectation_ge : forall p v c, probability p -> length p = length v -> (forall x, In x v -> c <= x) -> c <= expectation p v.
Proof.
  intros p v c P L H. assert (E : expectation p (map Ropp v) = - expectation p v).
  { unfold expectation. rewrite combine_map_r, tot_map. cbn. rewrite <- tot_opp. apply tot_ext. intros; ring. }
  pose proof (expectation_le p (map Ropp v) (- c) P) as U. rewrite map_length, E in U. specialize (U L).
  assert (- expectation p v <= - c); [|lra]. apply U. intros x I. apply in_map_iff in I. destruct I as (y & <- & I). specialize (H y I). lra.
Qed.

Theorem boltzmann : forall row beta, row <> [] ->
  (exists p, probability p /\ length p = length row /\ q_expectation row beta = expectation p row) /\
  (0 <= beta -> mean row <= q_expectation row beta) /\
  (forall m, is_maximum m row -> q_expectation row beta <= m).
Proof.
  intros row beta NE. assert (NE' : map (Rmult beta) row <> []) by (destruct row; [congruence|discriminate]).
  assert (L : length (softmax (map (Rmult beta) row)) = length row) by (rewrite softmax_len, map_length; reflexivity).
  pose proof (softmax_prob _ NE') as P. rewrite q_expectation_eq. split; [eauto|]. split.
  - intros B. set (mu := mean row). pose proof (root_mono (map (fun v => v - mu) row) 0 beta B) as M. unfold root_function in M. rewrite !fsum_map, !tot_map in M.
    rewrite expectation_softmax. pose proof (exp_total_pos beta row NE) as Z. pose proof (len_pos row NE) as N.
    rewrite (tot_ext _ (fun v => v - mu)) in M by (intros; rewrite Rmult_0_l, exp_0; ring).
    rewrite tot_sub, tot_const in M. unfold mu at 1 in M. unfold mean in M.
    replace (total_of (fun x : R => x) row - INR (length row) * (total_of (fun x => x) row / INR (length row))) with 0 in M by (field; lra).
    rewrite (tot_ext _ (fun v => exp (- (beta * mu)) * (exp (beta * v) * v - mu * exp (beta * v)))) in M.
    2: { intros v _. replace (beta * (v - mu)) with (- (beta * mu) + beta * v) by ring. rewrite exp_plus. ring. }
    rewrite tot_scale, tot_sub, tot_scale in M. pose proof (exp_pos (- (beta * mu))) as Ep.
    assert (mu * total_of (fun x => exp (beta * x)) row <= total_of (fun x => exp (beta * x) * x) row) as K by nra.
    apply (Rmult_le_reg_r (total_of (fun x => exp (beta * x)) row)); [exact Z|]. unfold Rdiv. rewrite Rmult_assoc, Rinv_l by lra. lra.
  - intros m (I & M). apply expectation_le; assumption.
Qed.

(** ** Slices *)
Lemma mapM_skipn : forall X Y (f : X -> res Y) l ys k, mapM f l = Ok ys -> mapM f (skipn k l) = Ok (skipn k ys).
Proof.
  intros X Y f l. induction l as [|x l IH]; intros ys [|k] E; cbn [mapM skipn] in *.
  - injection E as <-. reflexivity.
  - injection E as <-. reflexivity.
  - exact E.
  - destruct (f x) as [y|e]; [|discriminate]. cbn [bind] in E. destruct (mapM f l) as [ys'|e] eqn:M; [|discriminate]. injection E as <-. exact (IH ys' k eq_refl).
Qed.
Lemma mapM_firstn : forall X Y (f : X -> res Y) l ys k, mapM f l = Ok ys -> mapM f (firstn k l) = Ok (firstn k ys).
Proof.
  intros X Y f l. induction l as [|x l IH]; intros ys [|k] E; cbn [mapM firstn] in *; try (injection E as <-; reflexivity); [reflexivity|].
  destruct (f x) as [y|e]; [|discriminate]. cbn [bind] in E |- *. destruct (mapM f l) as [ys'|e] eqn:M; [|discriminate]. injection E as <-.
  rewrite (IH ys' k eq_refl). reflexivity.
Qed.
Lemma pick_skipn : forall X (q : list (list X)) g vs k, pick_rows q g = Ok vs -> length q = length g -> pick_rows (skipn k q) (skipn k g) = Ok (skipn k vs).
Proof.
  intros X q. induction q as [|row q IH]; intros [|a g] vs [|k] E L; try discriminate; cbn [pick_rows skipn] in *; try (injection E as <-; reflexivity); [exact E|].
  destruct (nth_error row a); [|discriminate]. destruct (pick_rows q g) as [vs'|e] eqn:P; [|discriminate]. injection E as <-. apply (IH g vs' k P). cbn in L. lia.
Qed.
Lemma pick_firstn : forall X (q : list (list X)) g vs k, pick_rows q g = Ok vs -> length q = length g -> pick_rows (firstn k q) (firstn k g) = Ok (firstn k vs).
Proof.
  intros X q. induction q as [|row q IH]; intros [|a g] vs [|k] E L; try discriminate; cbn [pick_rows firstn] in *; try (injection E as <-; reflexivity); [reflexivity|].
  destruct (nth_error row a); [|discriminate]. destruct (pick_rows q g) as [vs'|e] eqn:P; [|discriminate]. injection E as <-. rewrite (IH g vs' k P); [reflexivity|]. cbn in L. lia.
Qed.
Lemma slice_len : forall X Y (a : list X) (b : list Y) i j, length a = length b -> length (slice i j a) = length (slice i j b).
Proof. intros. unfold slice. rewrite !firstn_length, !skipn_length. congruence. Qed.
Lemma select_slice : forall X (q : list (list X)) g vs i j, select_item q g = Ok vs -> select_item (slice i j q) (slice i j g) = Ok (slice i j vs).
Proof.
  intros X q g vs i j E. unfold select_item in *. destruct (Nat.eqb_spec (length q) (length g)) as [L|L]; [|discriminate].
  rewrite (slice_len _ _ _ _ i j L), Nat.eqb_refl. unfold slice. apply pick_firstn; [apply pick_skipn; assumption|]. rewrite !skipn_length. congruence.
Qed.
Lemma slice_nth : forall X (q : list X) i j k, nth_error (slice i j q) k = if (k <? j - i)%nat then nth_error q (i + k) else None.
Proof.
  intros X q i j k. unfold slice. generalize (j - i)%nat as n. intros n.
  assert (S1 : forall (l : list X) i, nth_error (skipn i l) k = nth_error l (i + k)).
  { induction l as [|x l IH]; intros [|a]; cbn [skipn plus nth_error]; try reflexivity; [destruct k; reflexivity|apply IH]. }
  rewrite <- S1. generalize (skipn i q). clear. revert k. induction n; intros k l; [destruct k; reflexivity|].
  destruct l as [|x l]; [cbn [firstn]; destruct k; [reflexivity|]; cbn [nth_error]; destruct (S k <? S n)%nat; reflexivity|].
  destruct k; [reflexivity|]. cbn [firstn nth_error]. rewrite IHn. reflexivity.
Qed.
Theorem slices : forall q g m i j, av_greedy q = Ok g -> av_max q = Ok m ->
  (forall k, nth_error (av_getitem q i j) k = if (k <? j - i)%nat then nth_error q (i + k) else None) /\
  av_greedy (av_getitem q i j) = Ok (slice i j g) /\ av_max (av_getitem q i j) = Ok (slice i j m) /\
  forall acts e, av_evaluate q acts = Ok e -> av_evaluate (av_getitem q i j) (slice i j acts) = Ok (slice i j e).
Proof.
  intros q g m i j G M. assert (G' : av_greedy (av_getitem q i j) = Ok (slice i j g)) by (apply mapM_firstn, mapM_skipn, G).
  split; [intros k; apply slice_nth|]. split; [exact G'|]. split.
  - unfold av_max in *. rewrite G' . rewrite G in M. cbn [bind] in *. apply select_slice, M.
  - intros acts e. apply select_slice.
Qed.

(** ** Distributional values *)
Lemma pick_map : forall X Y (f : X -> Y) rows acts vs, pick_rows rows acts = Ok vs -> pick_rows (map (map f) rows) acts = Ok (map f vs).
Proof.
  intros X Y f rows. induction rows as [|row rows IH]; intros [|a acts] vs E; cbn [pick_rows map] in *; try (injection E as <-; reflexivity).
  rewrite nth_error_map. destruct (nth_error row a) as [v|]; [|discriminate]. cbn [option_map]. destruct (pick_rows rows acts) as [vs'|e] eqn:P; [|discriminate].
  injection E as <-. rewrite (IH acts vs' P). reflexivity.
Qed.
Lemma fsum_zip_expectation : forall d z, fsum (zipr Rmult d z) = expectation d z.
Proof. intros. unfold expectation. apply zipr_total. Qed.

Theorem dav_shapes : forall q_dist z, (exists q, dav_qvalues q_dist z = Ok q) <-> (forall rows d, In rows q_dist -> In d rows -> length d = length z).
Proof.
  intros q_dist z. unfold dav_qvalues. destruct (forallb _ q_dist) eqn:E; split.
  - intros _ rows d I J. rewrite forallb_forall in E. specialize (E rows I). rewrite forallb_forall in E. specialize (E d J). apply Nat.eqb_eq, E.
  - eauto.
  - intros (q & X). discriminate.
  - intros H. exfalso. assert (X : forallb (forallb (fun d => Nat.eqb (length d) (length z))) q_dist = true); [|congruence].
    apply forallb_forall. intros rows I. apply forallb_forall. intros d J. apply Nat.eqb_eq, (H rows d I J).
Qed.
Theorem dav_values : forall q_dist z q, dav_qvalues q_dist z = Ok q ->
  q = map (map (fun d => expectation d z)) q_dist /\
  (forall acts, valid_actions q acts -> exists ds, dav_evaluate_as_distribution q_dist acts = Ok ds /\ selects q_dist acts ds /\
     av_evaluate q acts = Ok (map (fun d => expectation d z) ds)) /\
  ((forall row, In row q -> row <> []) -> exists g ds, av_greedy q = Ok g /\ Forall2 first_greedy q g /\ selects q_dist g ds /\
     dav_max_as_distribution q_dist z = Ok ds /\ av_max q = Ok (map (fun d => expectation d z) ds)).
Proof.
  intros q_dist z q E. pose proof E as E0. unfold dav_qvalues in E. destruct (forallb _ q_dist); [|discriminate]. injection E as E.
  assert (Q : q = map (map (fun d => expectation d z)) q_dist).
  { rewrite <- E. apply map_ext. intros. apply map_ext. intros. apply fsum_zip_expectation. }
  clear E. assert (K : forall acts, valid_actions q acts -> exists ds, dav_evaluate_as_distribution q_dist acts = Ok ds /\ selects q_dist acts ds /\
     av_evaluate q acts = Ok (map (fun d => expectation d z) ds)).
  { intros acts V. assert (V' : valid_actions q_dist acts).
    { subst q. unfold valid_actions in *. clear E0. revert acts V. induction q_dist as [|rows l IH]; intros acts V; inversion V; subst; constructor; [|apply IH; assumption]. rewrite map_length in *. assumption. }
    destruct (pick_ok _ _ _ V') as (ds & P & S). exists ds. unfold dav_evaluate_as_distribution, av_evaluate, select_item.
    rewrite (Forall2_len _ _ _ _ _ V'), (Forall2_len _ _ _ _ _ V), !Nat.eqb_refl. split; [exact P|]. split; [exact S|]. rewrite Q. apply pick_map, P. }
  split; [exact Q|]. split; [exact K|]. intros NE. destruct (greedy_ok q NE) as (g & G & F). destruct (K g (greedy_valid _ _ F)) as (ds & D1 & D2 & D3).
  exists g, ds. split; [exact G|]. split; [exact F|]. split; [exact D2|]. unfold dav_max_as_distribution, av_max. rewrite E0. cbn [bind]. rewrite G. cbn [bind]. split; [exact D1|exact D3].
Qed.
Theorem dav_range : forall q_dist z q lo hi, dav_qvalues q_dist z = Ok q ->
  (forall rows d, In rows q_dist -> In d rows -> probability d) -> (forall x, In x z -> lo <= x <= hi) ->
  forall row v, In row q -> In v row -> lo <= v <= hi.
Proof.
  intros q_dist z q lo hi E P Z row v I J. destruct (dav_shapes q_dist z) as (Sh & _). specialize (Sh (ex_intro _ q E)).
  destruct (dav_values _ _ _ E) as (Q & _). subst q. apply in_map_iff in I. destruct I as (rows & <- & I). apply in_map_iff in J. destruct J as (d & <- & J).
  split; [apply expectation_ge|apply expectation_le]; eauto; intros x Ix; apply Z, Ix.
Qed.

(** ** Quantile values *)
Lemma row_sum_nth : forall n rows a, wide n rows -> (a < n)%nat ->
  length (row_sum n rows) = n /\ nth_error (row_sum n rows) a = Some (total_of (fun row => nth a row 0) rows).
Proof.
  intros n rows a. induction rows as [|row rows IH]; intros W A; cbn [row_sum fold_right].
  - rewrite repeat_length. split; [reflexivity|]. cbn. apply nth_error_repeat, A.
  - destruct IH as (L & N); [intros r I; apply W; right; exact I|exact A|]. assert (Lr : length row = n) by (apply W; left; reflexivity).
    fold (row_sum n rows). split; [rewrite zipr_len; congruence|]. rewrite tot_cons. apply zipr_nth; [|exact N]. apply nth_error_nth'. lia.
Qed.
Lemma row_sum_len : forall n rows, wide n rows -> length (row_sum n rows) = n.
Proof.
  intros n rows. induction rows as [|row rows IH]; intros W; cbn [row_sum fold_right]; [apply repeat_length|].
  fold (row_sum n rows). assert (Lr : length row = n) by (apply W; left; reflexivity). rewrite zipr_len; [exact Lr|]. rewrite IH; [exact Lr|]. intros r I. apply W. right. exact I.
Qed.
Lemma pick_repeat : forall n rows a, wide n rows -> (a < n)%nat ->
  pick_rows rows (repeat a (length rows)) = Ok (map (fun row => nth a row 0) rows).
Proof.
  intros n rows a W A. induction rows as [|row rows IH]; [reflexivity|]. cbn [length repeat pick_rows map].
  assert (Lr : length row = n) by (apply W; left; reflexivity). rewrite (nth_error_nth' row 0) by lia. rewrite IH by (intros r I; apply W; right; exact I). reflexivity.
Qed.
Theorem quantile_values : forall n quantiles acts, (forall m, In m quantiles -> m <> [] /\ wide n m) ->
  valid_actions (quant_qvalues n quantiles) acts -> exists taus,
  quant_evaluate quantiles acts = Ok taus /\
  Forall2 (fun p ts => ts = map (fun row => nth (snd p) row 0) (fst p)) (combine quantiles acts) taus /\
  av_evaluate (quant_qvalues n quantiles) acts = Ok (map mean taus).
Proof.
  intros n quantiles acts W V. assert (L : length quantiles = length acts).
  { apply Forall2_len in V. unfold quant_qvalues in V. rewrite map_length in V. exact V. }
  unfold quant_evaluate, av_evaluate, select_item. rewrite (Forall2_len _ _ _ _ _ V), L, !Nat.eqb_refl.
  revert acts V L. induction quantiles as [|m l IH]; intros [|a acts] V L; try discriminate.
  - exists []. repeat split; constructor.
  - cbn [quant_qvalues map] in V. inversion V as [|? ? ? ? A V']; subst. clear V. destruct (W m (or_introl eq_refl)) as (NE & Wm).
    rewrite map_length, (row_sum_len n m Wm) in A.
    destruct (IH (fun m' I => W m' (or_intror I)) acts V') as (taus & T1 & T2 & T3); [cbn in L; lia|].
    exists (map (fun row => nth a row 0) m :: taus). cbn [combine mapM fst snd]. rewrite (pick_repeat n m a Wm A). cbn [bind]. rewrite T1. cbn [bind].
    split; [reflexivity|]. split; [constructor; [reflexivity|exact T2]|]. cbn [quant_qvalues map pick_rows].
    rewrite nth_error_map. destruct (row_sum_nth n m a Wm A) as (_ & N). rewrite N. cbn [option_map]. unfold quant_qvalues in T3. rewrite T3. cbn [bind]. do 2 f_equal.
    unfold mean. rewrite tot_map, map_length. reflexivity.
Qed.

(** ** Dueling *)
Lemma first_greedy_shift : forall row c a, first_greedy (map (fun x => x + c) row) a <-> first_greedy row a.
Proof.
  intros row c a. split; intros (m & A & B & C).
  - rewrite nth_error_map in A. destruct (nth_error row a) as [x|] eqn:E; [|discriminate]. cbn in A. injection A as <-. exists x. split; [exact E|]. split.
    + intros y I. specialize (B (y + c) (in_map (fun x => x + c) _ _ I)). lra.
    + intros j y J N. specialize (C j (y + c) J). rewrite nth_error_map, N in C. specialize (C eq_refl). lra.
  - exists (m + c). rewrite nth_error_map, A. split; [reflexivity|]. split.
    + intros y I. apply in_map_iff in I. destruct I as (x & <- & I). specialize (B x I). lra.
    + intros j y J N. rewrite nth_error_map in N. destruct (nth_error row j) as [x|] eqn:E; [|discriminate]. injection N as <-. specialize (C j x J E). lra.
Qed.
Lemma dueling_shift : forall n ya ys, dueling_row n ya ys = map (fun a => a + (ys - fsum ya / INR n)) ya.
Proof. intros. unfold dueling_row. apply map_ext. intros. lra. Qed.
Lemma fsum_shift : forall l c, fsum (map (fun x => x + c) l) = fsum l + INR (length l) * c.
Proof. intros. rewrite fsum_total, tot_map, (tot_add (fun x => x) (fun _ => c)), tot_const, (fsum_total l). reflexivity. Qed.
Theorem dueling_head : forall n ya ys, length ya = n -> (0 < n)%nat ->
  length (dueling_row n ya ys) = n /\ mean (dueling_row n ya ys) = ys /\
  (forall a b, (a < n)%nat -> (b < n)%nat -> nth a (dueling_row n ya ys) 0 - nth b (dueling_row n ya ys) 0 = nth a ya 0 - nth b ya 0) /\
  (forall a, first_greedy (dueling_row n ya ys) a <-> first_greedy ya a) /\
  (forall c, dueling_row n (map (fun x => x + c) ya) ys = dueling_row n ya ys).
Proof.
  intros n ya ys L N. assert (In0 : INR n <> 0) by (apply not_0_INR; lia). rewrite dueling_shift. split; [rewrite map_length; exact L|]. split; [|split; [|split]].
  - unfold mean. rewrite map_length, <- (fsum_total (map _ ya)), fsum_shift, L. field. exact In0.
  - intros a b A B. set (c := ys - fsum ya / INR n).
assert (K : forall i, (i < n)%nat -> nth i (map (fun x => x + c) ya) 0 = nth i ya 0 + c).
    { intros i I. rewrite (nth_indep _ 0 (0 + c)) by (rewrite map_length; lia). rewrite (map_nth (fun x => x + c)). reflexivity. }
    rewrite !K by assumption. lra.
  - intros a. apply first_greedy_shift.
  - intros c. rewrite (dueling_shift n (map _ ya)), map_map, fsum_shift, L. apply map_ext. intros x. field. exact In0.
Qed.

Lemma zipr_map2 : forall f (g h : R -> R) a b, zipr f (map g a) (map h b) = zipr (fun x y => f (g x) (h y)) a b.
Proof. intros f g h a. induction a as [|x a IH]; intros [|y b]; cbn; [reflexivity..|]. rewrite IH. reflexivity. Qed.
Lemma nth_ext_error : forall X (a b : list X), length a = length b -> (forall i x y, nth_error a i = Some x -> nth_error b i = Some y -> x = y) -> a = b.
Proof.
  intros X a. induction a as [|x a IH]; intros [|y b] L H; try discriminate; [reflexivity|]. f_equal; [exact (H O x y eq_refl eq_refl)|].
  apply IH; [cbn in L; lia|]. intros i u v. exact (H (S i) u v).
Qed.
Theorem dist_dueling_head : forall n k ya ys, length ya = n -> (0 < n)%nat -> (0 < k)%nat -> wide k ya -> length ys = k ->
  length (dist_dueling_row n k ya ys) = n /\
  (forall d, In d (dist_dueling_row n k ya ys) -> length d = k /\ probability d /\ forall x, In x d -> 0 < x) /\
  (forall c, length c = k -> dist_dueling_row n k (map (fun a => zipr Rplus a c) ya) ys = dist_dueling_row n k ya ys).
Proof.
  intros n k ya ys L N K W Ls. assert (In0 : INR n <> 0) by (apply not_0_INR; lia). set (mean_ := map (fun s => s / INR n) (row_sum k ya)).
  assert (Lm : length mean_ = k) by (unfold mean_; rewrite map_length; apply row_sum_len, W).
  split; [unfold dist_dueling_row; rewrite map_length; exact L|]. split.
  - intros d I. unfold dist_dueling_row in I. apply in_map_iff in I. destruct I as (a & <- & I). specialize (W a I). fold mean_.
    assert (La : length (zipr Rplus (zipr Rminus a mean_) ys) = k) by (rewrite !zipr_len; rewrite ?zipr_len; congruence).
    assert (NE : zipr Rplus (zipr Rminus a mean_) ys <> []) by (intros X; rewrite X in La; cbn in La; lia).
    split; [rewrite softmax_len; exact La|]. split; [apply softmax_prob, NE|apply softmax_pos, NE].
  - intros c Lc. unfold dist_dueling_row. rewrite map_map. apply map_ext_in. intros a I. pose proof (W a I) as La. do 2 f_equal.
    assert (W' : wide k (map (fun a => zipr Rplus a c) ya)).
    { intros r J. apply in_map_iff in J. destruct J as (b & <- & J). rewrite zipr_len; [apply W, J|]. rewrite Lc. apply W, J. }
    assert (Lac : length (zipr Rplus a c) = k) by (rewrite zipr_len; congruence).
    apply nth_ext_error; [rewrite !zipr_len; rewrite ?map_length, ?row_sum_len; rewrite ?zipr_len; auto; congruence|].
    intros i x y X Y. assert (Hi : (i < k)%nat).
    { assert (Z : lt i (length (zipr Rminus a (map (fun s => s / INR n) (row_sum k ya))))) by (apply nth_error_Some; congruence). rewrite zipr_len in Z; [lia|]. rewrite map_length, row_sum_len; auto. }
    destruct (nth_some _ a i) as (u & Eu); [lia|]. destruct (nth_some _ c i) as (w & Ew); [lia|].
    destruct (row_sum_nth k ya i W Hi) as (_ & S1). destruct (row_sum_nth k _ i W' Hi) as (_ & S2).
    rewrite (zipr_nth _ _ _ _ u (total_of (fun row => nth i row 0) ya / INR n) Eu) in Y by (rewrite nth_error_map, S1; reflexivity).
    rewrite (zipr_nth _ _ _ _ (u + w) (total_of (fun row => nth i row 0) (map (fun a => zipr Rplus a c) ya) / INR n)) in X;
      [|apply zipr_nth; assumption|rewrite nth_error_map, S2; reflexivity].
    injection X as <-. injection Y as <-. rewrite tot_map. rewrite (tot_ext _ (fun r => nth i r 0 + w)).
    + rewrite (tot_add (fun r => nth i r 0) (fun _ => w)), tot_const, L. field. exact In0.
    + intros r J. apply nth_error_nth. apply zipr_nth; [apply nth_error_nth'; rewrite (W r J); exact Hi|exact Ew].
Qed.
