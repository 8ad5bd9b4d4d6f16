From Coq Require Import List Arith String Bool Lia.
From Verif Require Import Base.PyBase Model.OutputDir Spec.OutputDirSpec.
Import ListNotations.
Set Implicit Arguments.

Lemma dirname_app : forall (p : path) n, dirname (p ++ [n]) = p.
Proof. intros. apply removelast_last. Qed.
Lemma put_same : forall f p e, put f p e p = Some e.
Proof. intros. unfold put. destruct (path_eq p p); [reflexivity|congruence]. Qed.
Lemma put_other : forall f p e q, q <> p -> put f p e q = f q.
Proof. intros. unfold put. destruct (path_eq q p); [congruence|reflexivity]. Qed.
Lemma tail_inj : forall (p q : path) a b, p ++ [a] = q ++ [b] -> p = q /\ a = b.
Proof. intros. apply app_inj_tail. assumption. Qed.
Lemma upd_same' : forall X (l : list X) k y, k < List.length l -> nth_error (upd l k y) k = Some y.
Proof. induction l; intros [|k] y H; cbn in *; try lia; [reflexivity|]. apply IHl. lia. Qed.
Lemma upd_other' : forall X (l : list X) k j y, j <> k -> nth_error (upd l k y) j = nth_error l j.
Proof. induction l; intros [|k] [|j] y H; cbn; try reflexivity; try congruence. apply IHl. congruence. Qed.

Lemma mkdir_inl : forall f p f', mkdir f p = inl f' -> f p = None /\ f (dirname p) = Some Dir /\ f' = put f p Dir.
Proof.
  intros f p f'. unfold mkdir, exists_, parent_error. destruct (f p) eqn:E; [discriminate|]. destruct (f (dirname p)) as [[]|]; try discriminate.
  intros [= <-]. auto.
Qed.
Lemma open_inl : forall f p f', open_w f p = inl f' -> f p <> Some Dir /\ f (dirname p) = Some Dir /\ f' = put f p (File "").
Proof.
  intros f p f'. unfold open_w, is_dir, parent_error. destruct (f p) as [[]|] eqn:E; try discriminate; destruct (f (dirname p)) as [[]|]; try discriminate;
  intros [= <-]; repeat split; congruence.
Qed.

(** The directory a call has made for itself. *)
Definition own (s : state) : option path := match s with Opening o _ | Writing o _ _ _ | Done o => Some o | _ => None end.
Definition written (f : fsys) (o : path) (j : string * res string) : Prop := exists t, snd j = Ok t /\ f (o ++ [fst j]) = Some (File t).
Definition local (c : config) (s : state) (f : fsys) : Prop :=
  match s with
  | CheckUser | CheckUserDir | CheckOut => exists u, user_dir c = Some u
  | Down p above | Up p above => exists u, user_dir c = Some u /\ last above p = out_dir u c /\ within p (out_dir u c) /\ Forall (fun q => within q (out_dir u c)) above
  | Temp names => user_dir c = None /\ incl names (temp_names c)
  | Opening o todo => expected_place c o /\ f o = Some Dir /\ exists dn, files c = dn ++ todo /\ Forall (written f o) dn
  | Writing o n x todo => expected_place c o /\ f o = Some Dir /\ f (o ++ [n]) = Some (File "") /\ exists dn, files c = dn ++ (n, x) :: todo /\ Forall (written f o) dn
  | Done o => expected_place c o /\ f o = Some Dir /\ Forall (written f o) (files c)
  | Failed _ => True
  end.
Lemma files_nodup : forall c, NoDup (map fst (files c)).
Proof.
  intros c. unfold files. destruct (under_git c); cbn; repeat (constructor; [cbn; intuition discriminate|]); constructor.
Qed.

Definition effect (c : config) (f f' : fsys) (s s' : state) : Prop :=
  (f' = f /\ (own s' = own s \/ own s' = None)) \/
  (exists p o, f p = None /\ f' = put f p Dir /\ f (dirname p) = Some Dir /\ expected_place c o /\ within p o /\ own s = None /\ (own s' = None \/ own s' = Some p)) \/
  (exists o n x, own s = Some o /\ own s' = Some o /\ f o = Some Dir /\ f (o ++ [n]) <> Some Dir /\ f' = put f (o ++ [n]) (File x) /\ expected_place c o).

Lemma within_refl : forall p, within p p.
Proof. intros p. exists []. rewrite app_nil_r. reflexivity. Qed.
Lemma within_dirname : forall p q, within p q -> within (dirname p) q.
Proof.
  intros p q [r ->]. destruct p using rev_ind; [exists r; reflexivity|]. rewrite dirname_app. exists ([x] ++ r). rewrite <- app_assoc. reflexivity.
Qed.
Lemma last_cons : forall X (x y : X) l, last (x :: l) y = last l x.
Proof. intros X x y l. revert x y. induction l; intros x y; [reflexivity|]. cbn [last] in *. destruct l; [reflexivity|]. apply (IHl x y). Qed.

Lemma written_put_other : forall f o q e dn, Forall (written f o) dn -> (forall j, In j dn -> o ++ [fst j] <> q) -> Forall (written (put f q e) o) dn.
Proof.
  intros f o q e dn H N. rewrite Forall_forall in *. intros j Hj. destruct (H j Hj) as (t & A & B). exists t. split; [exact A|]. rewrite put_other by (apply N, Hj). exact B.
Qed.
Lemma nodup_names : forall c dn (n : string) x todo, files c = dn ++ (n, x) :: todo -> forall j, In j dn -> fst j <> n.
Proof.
  intros c dn n x todo E j Hj Q. pose proof (files_nodup c) as N. rewrite E, map_app in N. cbn [map fst] in N. apply NoDup_remove_2 in N. apply N, in_or_app. left.
  rewrite <- Q. apply in_map, Hj.
Qed.

Lemma snoc_ne : forall (o : path) n, o <> o ++ [n].
Proof. intros o n E. apply (f_equal (@List.length string)) in E. rewrite app_length in E. cbn in E. lia. Qed.

Lemma step_ok : forall c f s f' s', local c s f -> step c f s = (f', s') -> local c s' f' /\ effect c f f' s s'.
Proof.
  intros c f s f' s' L E. destruct s as [| | |p ab|p ab|nm|o todo|o n x todo|o|e]; cbn [step local] in *.
  - destruct L as [u U]. rewrite U in E. injection E as <- <-. split; [destruct (exists_ f u); cbn; eauto|left; split; [reflexivity|destruct (exists_ f u); auto]].
  - destruct L as [u U]. rewrite U in E. injection E as <- <-. split; [destruct (is_dir f u); cbn; eauto|left; split; [reflexivity|destruct (is_dir f u); auto]].
  - destruct L as [u U]. rewrite U in E. injection E as <- <-. destruct (exists_ f (out_dir u c)); cbn.
    + split; [exact I|left; auto].
    + split; [exists u; split; [exact U|]; split; [reflexivity|]; split; [apply within_refl|constructor]|left; auto].
  - destruct L as (u & U & La & W & Wa). injection E as <- <-. destruct (exists_ f (dirname p)); cbn [local].
    + split; [exists u; auto|left; auto].
    + split; [|left; auto]. exists u. split; [exact U|]. split; [rewrite last_cons; exact La|]. split; [apply within_dirname, W|constructor; assumption].
  - destruct L as (u & U & La & W & Wa). assert (EP : expected_place c (out_dir u c)) by (unfold expected_place; rewrite U; reflexivity).
    assert (NEXT : forall q r, ab = q :: r -> forall g, local c (Up q r) g).
    { intros q r -> g. rewrite last_cons in La. inversion Wa; subst. exists u. auto. }
    destruct (mkdir f p) as [f1|e] eqn:M.
    + injection E as <- <-. apply mkdir_inl in M. destruct M as (A & B & ->). destruct ab as [|q r].
      * cbn [last] in La. subst p. split.
        { cbn [begin_files local]. split; [exact EP|]. split; [apply put_same|]. exists []. split; [reflexivity|constructor]. }
        right. left. exists (out_dir u c), (out_dir u c). repeat split; auto.
      * split; [apply NEXT; reflexivity|]. right. left. exists p, (out_dir u c). repeat split; auto.
    + assert (G : local c (match ab with [] => Failed (OSErr EExist) | q :: r => Up q r end) f) by (destruct ab; [exact I|apply NEXT; reflexivity]).
      assert (G2 : own (match ab with [] => Failed (OSErr EExist) | q :: r => Up q r end) = None) by (destruct ab; reflexivity).
      destruct e; injection E as <- <-; (split; [first [exact G|exact I]|left; split; [reflexivity|first [left; rewrite G2; reflexivity|left; reflexivity]]]).
  - destruct L as [U IN]. destruct nm as [|n nm]; [injection E as <- <-; split; [exact I|left; auto]|].
    assert (EP : expected_place c (temp_dir c ++ [n])) by (unfold expected_place; rewrite U; exists n; split; [apply IN; left; reflexivity|reflexivity]).
    destruct (mkdir f (temp_dir c ++ [n])) as [f1|e] eqn:M.
    + injection E as <- <-. apply mkdir_inl in M. destruct M as (A & B & ->). split.
      * cbn [begin_files local]. split; [exact EP|]. split; [apply put_same|]. exists []. split; [reflexivity|constructor].
      * right. left. exists (temp_dir c ++ [n]), (temp_dir c ++ [n]). repeat split; auto. apply within_refl.
    + destruct e; injection E as <- <-; (split; [first [exact I|split; [exact U|intros y Hy; apply IN; right; exact Hy]]|left; auto]).
  - destruct L as (EP & D & dn & Fi & Wr). destruct todo as [|[n x] todo].
    + injection E as <- <-. rewrite app_nil_r in Fi. subst dn; split; [split; [exact EP|split; [exact D|exact Wr]]|left; auto].
    + destruct (open_w f (o ++ [n])) as [f1|e] eqn:M.
      * injection E as <- <-. apply open_inl in M. destruct M as (A & B & ->). split.
        { cbn [local]. split; [exact EP|]. split; [rewrite put_other by apply snoc_ne; exact D|]. split; [apply put_same|]. exists dn. split; [exact Fi|].
          apply written_put_other; [exact Wr|]. intros j Hj Q. apply tail_inj in Q. destruct Q as [_ Q]. exact (@nodup_names _ _ _ _ _ Fi _ Hj Q). }
        right. right. exists o, n, ""%string. repeat split; auto.
      * injection E as <- <-. split; [exact I|left; auto].
  - destruct L as (EP & D & B & dn & Fi & Wr). destruct x as [t|e]; injection E as <- <-.
    + split.
      * cbn [local]. split; [exact EP|]. split; [rewrite put_other by apply snoc_ne; exact D|]. exists (dn ++ [(n, Ok t)]). split; [rewrite <- app_assoc; exact Fi|].
        apply Forall_app. split; [|constructor; [|constructor]].
        { apply written_put_other; [exact Wr|]. intros j Hj Q. apply tail_inj in Q. destruct Q as [_ Q]. exact (@nodup_names _ _ _ _ _ Fi _ Hj Q). }
        exists t. split; [reflexivity|apply put_same].
      * right. right. exists o, n, t. repeat split; auto. congruence.
    + split; [exact I|left; auto].
  - injection E as <- <-. split; [exact L|left; auto].
  - injection E as <- <-. split; [exact I|left; auto].
Qed.

(** Another call's step does not disturb this one. *)
Definition keeps (f f' : fsys) (o : path) : Prop := (f o = Some Dir -> f' o = Some Dir) /\ forall n, f (o ++ [n]) <> None -> f' (o ++ [n]) = f (o ++ [n]).
Lemma local_keeps : forall c s f f', local c s f -> (forall o, own s = Some o -> keeps f f' o) -> local c s f'.
Proof.
  intros c s f f' L K. destruct s as [| | |p ab|p ab|nm|o todo|o n x todo|o|e]; cbn [local own] in *; auto.
  - destruct (K o eq_refl) as [K1 K2]. destruct L as (EP & D & dn & Fi & Wr). split; [exact EP|]. split; [auto|]. exists dn. split; [exact Fi|].
    eapply Forall_impl; [|exact Wr]. intros j (t & A & B). exists t. split; [exact A|]. rewrite K2; congruence.
  - destruct (K o eq_refl) as [K1 K2]. destruct L as (EP & D & B0 & dn & Fi & Wr). split; [exact EP|]. split; [auto|]. split; [rewrite K2; congruence|]. exists dn. split; [exact Fi|].
    eapply Forall_impl; [|exact Wr]. intros j (t & A & B). exists t. split; [exact A|]. rewrite K2; congruence.
  - destruct (K o eq_refl) as [K1 K2]. destruct L as (EP & D & Wr). split; [exact EP|]. split; [auto|].
    eapply Forall_impl; [|exact Wr]. intros j (t & A & B). exists t. split; [exact A|]. rewrite K2; congruence.
Qed.

Record inv (f0 : fsys) (w : world) : Prop := mk_inv {
  i_old : forall p, f0 p <> None -> disk w p = f0 p;
  i_proper : proper (disk w);
  i_local : forall i c s, nth_error (calls w) i = Some (c, s) -> local c s (disk w) /\ forall o, own s = Some o -> f0 o = None;
  i_apart : forall i j c s c' s' o, i <> j -> nth_error (calls w) i = Some (c, s) -> nth_error (calls w) j = Some (c', s') -> own s = Some o -> own s' = Some o -> False;
  i_new : forall p, disk w p <> f0 p -> exists i c s o, nth_error (calls w) i = Some (c, s) /\ expected_place c o /\ (within p o \/ exists n, p = o ++ [n])
}.

Lemma proper_put_dir : forall f p, proper f -> f p = None -> f (dirname p) = Some Dir -> proper (put f p Dir).
Proof.
  intros f p [R PR] N D. split.
  - destruct (path_eq [] p) as [<-|Q]; [apply put_same|]. rewrite put_other by exact Q. exact R.
  - intros q n H. destruct (path_eq (q ++ [n]) p) as [<-|Q].
    + rewrite dirname_app in D. rewrite put_other by apply snoc_ne. exact D.
    + rewrite put_other in H by exact Q. destruct (path_eq q p) as [->|Q2]; [apply put_same|]. rewrite put_other by exact Q2. apply (PR _ _ H).
Qed.
Lemma proper_put_file : forall f o n x, proper f -> f o = Some Dir -> f (o ++ [n]) <> Some Dir -> proper (put f (o ++ [n]) (File x)).
Proof.
  intros f o n x [R PR] D N. split.
  - rewrite put_other; [exact R|]. intros Q. symmetry in Q. apply app_eq_nil in Q. destruct Q. discriminate.
  - intros q m H. destruct (path_eq (q ++ [m]) (o ++ [n])) as [Q|Q].
    + apply tail_inj in Q. destruct Q as [-> ->]. rewrite put_other by apply snoc_ne. exact D.
    + rewrite put_other in H by exact Q. pose proof (PR _ _ H) as Dq. rewrite put_other; [exact Dq|]. intros ->. congruence.
Qed.
Lemma turn_inv : forall f0, proper f0 -> forall w i, inv f0 w -> inv f0 (turn w i).
Proof.
  intros f0 P0 [f cs] i [OLD PR LOC AP NEW]. unfold turn. cbn [disk calls] in *. destruct (nth_error cs i) as [[c s]|] eqn:Ei; [|constructor; assumption].
  destruct (step c f s) as [f' s'] eqn:E. assert (Li : i < List.length cs) by (apply nth_error_Some; congruence).
  destruct (LOC i c s Ei) as [L OW]. destruct (step_ok _ _ _ L E) as [L' EF].
  assert (NTH : forall j c1 s1, nth_error (upd cs i (c, s')) j = Some (c1, s1) -> (j = i /\ c1 = c /\ s1 = s') \/ (j <> i /\ nth_error cs j = Some (c1, s1))).
  { intros j c1 s1 H. destruct (Nat.eq_dec j i) as [->|Q]; [rewrite upd_same' in H by exact Li; injection H as <- <-; auto|]. rewrite upd_other' in H by exact Q. auto. }
  assert (NTHI : nth_error (upd cs i (c, s')) i = Some (c, s')) by (apply upd_same', Li).
  assert (NTHJ : forall j x, j <> i -> nth_error cs j = Some x -> nth_error (upd cs i (c, s')) j = Some x) by (intros; rewrite upd_other' by assumption; assumption).
  assert (NEW0 : forall p, f p <> f0 p -> exists i1 c1 s1 o, nth_error (upd cs i (c, s')) i1 = Some (c1, s1) /\ expected_place c1 o /\ (within p o \/ exists n, p = o ++ [n])).
  { intros p H. destruct (NEW p H) as (i1 & c1 & s1 & o & A & B & C). destruct (Nat.eq_dec i1 i) as [->|Q].
    - rewrite Ei in A. injection A as <- <-. exists i, c, s', o. auto.
    - exists i1, c1, s1, o. split; [apply NTHJ; assumption|auto]. }
  (* what the step means for the others *)
  assert (KEEP : forall j c1 s1 o, j <> i -> nth_error cs j = Some (c1, s1) -> own s1 = Some o -> keeps f f' o).
  { intros j c1 s1 o Hj Hn Ho. destruct EF as [(-> & _)|[(p & q & N & -> & _)|(q & n & x & Os & _ & Dq & ND & -> & _)]].
    - split; auto.
    - split; [intros D; rewrite put_other; [exact D|congruence]|]. intros n Hx. apply put_other. congruence.
    - assert (q <> o) by (intros ->; exact (AP i j _ _ _ _ o (not_eq_sym Hj) Ei Hn Os Ho)).
      split; [intros D; rewrite put_other; [exact D|congruence]|]. intros m Hx. apply put_other. intros Q. apply tail_inj in Q. destruct Q as [Q _]. congruence. }
  assert (OWN' : forall o, own s' = Some o -> f0 o = None).
  { intros o Ho. destruct EF as [(-> & [Q|Q])|[(p & q & N & -> & _ & _ & _ & _ & [Q|Q])|(q & n & x & Os & Q & _)]]; try congruence.
    - apply OW. congruence.
    - rewrite Ho in Q. injection Q as ->. destruct (f0 p) eqn:F0; [|reflexivity]. rewrite OLD in N; congruence.
    - apply OW. congruence. }
  constructor; cbn [disk calls].
  - intros p Hp. destruct EF as [(-> & _)|[(q & o & N & -> & _)|(o & n & x & Os & _ & _ & _ & -> & _)]].
    + apply OLD, Hp.
    + rewrite put_other; [apply OLD, Hp|]. intros ->. rewrite OLD in N by exact Hp. contradiction.
    + rewrite put_other; [apply OLD, Hp|]. intros ->. destruct P0 as [_ PP]. apply PP in Hp. rewrite (OW o Os) in Hp. discriminate.
  - destruct EF as [(-> & _)|[(q & o & N & -> & D & _)|(o & n & x & Os & _ & D & ND & -> & _)]]; [exact PR|apply proper_put_dir; assumption|apply proper_put_file; assumption].
  - intros j c1 s1 H. destruct (NTH _ _ _ H) as [(-> & -> & ->)|(Hj & Hn)]; [split; assumption|]. destruct (LOC j c1 s1 Hn) as [L1 O1]. split; [|exact O1].
    apply (local_keeps c1 s1 L1). intros o Ho. apply (KEEP j c1 s1); assumption.
  - assert (ONE : forall j c1 s1 o, j <> i -> nth_error cs j = Some (c1, s1) -> own s1 = Some o -> own s' = Some o -> False).
    { intros j c1 s1 o Hj Hn Ho Ho'. destruct EF as [(-> & [Q|Q])|[(p & q & N & -> & _ & _ & _ & _ & [Q|Q])|(q & n & x & Os & Q & _)]]; try congruence.
      - apply (AP i j _ _ _ _ o (not_eq_sym Hj) Ei Hn); congruence.
      - rewrite Ho' in Q. injection Q as ->. destruct (LOC j c1 s1 Hn) as [L1 _]. destruct s1; try discriminate; cbn in Ho; injection Ho as ->; destruct L1 as (_ & D & _); congruence.
      - apply (AP i j _ _ _ _ o (not_eq_sym Hj) Ei Hn); congruence. }
    intros a b c1 s1 c2 s2 o Hab Ha Hb Oa Ob. destruct (NTH _ _ _ Ha) as [(-> & -> & ->)|(Ha1 & Ha2)]; destruct (NTH _ _ _ Hb) as [(-> & -> & ->)|(Hb1 & Hb2)]; try congruence.
    + apply (ONE b c2 s2 o); assumption.
    + apply (ONE a c1 s1 o); assumption.
    + apply (AP a b c1 s1 c2 s2 o); assumption.
  - intros p Hp. destruct EF as [(-> & _)|[(q & o & N & -> & _ & EP & W & _)|(o & n & x & Os & _ & _ & _ & -> & EP)]].
    + apply NEW0, Hp.
    + destruct (path_eq p q) as [->|Q]; [exists i, c, s', o; auto|]. rewrite put_other in Hp by exact Q. apply NEW0, Hp.
    + destruct (path_eq p (o ++ [n])) as [->|Q]; [exists i, c, s', o; eauto|]. rewrite put_other in Hp by exact Q. apply NEW0, Hp.
Qed.
Lemma run_inv : forall f0, proper f0 -> forall sched w, inv f0 w -> inv f0 (run w sched).
Proof. intros f0 P0 sched. induction sched as [|i sched IH]; intros w I; [exact I|]. apply IH, turn_inv; assumption. Qed.
Lemma begin_inv : forall f0 cs, proper f0 -> inv f0 (begin f0 cs).
Proof.
  intros f0 cs P0. assert (ST : forall i c s, nth_error (calls (begin f0 cs)) i = Some (c, s) -> s = start c).
  { intros i c s H. cbn in H. rewrite nth_error_map in H. destruct (nth_error cs i); [|discriminate]. injection H as <- <-. reflexivity. }
  assert (OW : forall c, own (start c) = None) by (intros c; unfold start; destruct (user_dir c); reflexivity).
  constructor.
  - reflexivity.
  - exact P0.
  - intros i c s H. rewrite (ST _ _ _ H). split; [|intros o Ho; rewrite OW in Ho; discriminate]. unfold start. destruct (user_dir c) eqn:U; cbn; eauto using incl_refl.
  - intros i j c s c' s' o _ Hi _ Ho _. rewrite (ST _ _ _ Hi), OW in Ho. discriminate.
  - intros p H. elim H. reflexivity.
Qed.
Lemma configs_kept : forall sched w, map fst (calls (run w sched)) = map fst (calls w).
Proof.
  induction sched as [|i sched IH]; intros w; [reflexivity|]. cbn [run fold_left]. fold (run (turn w i) sched). rewrite IH. unfold turn.
  destruct (nth_error (calls w) i) as [[c s]|] eqn:E; [|reflexivity]. destruct (step c (disk w) s). cbn [calls]. revert i E. generalize (calls w). induction l as [|[a b] l IHl]; intros [|i] E; cbn in *; try discriminate.
  - injection E as <- <-. reflexivity.
  - f_equal. apply IHl, E.
Qed.

Lemma all_written : forall f o c, f o = Some Dir -> Forall (written f o) (files c) -> complete f o c.
Proof.
  intros f o c D W. split; [exact D|]. unfold files in W. apply Forall_app in W. destruct W as [W1 W2].
  inversion W1 as [|? ? (a & A1 & A2) W3]; subst. inversion W3 as [|? ? (e & E1 & E2) W4]; subst. inversion W4 as [|? ? (m & M1 & M2) _]; subst. cbn [fst snd] in *. injection M1 as <-.
  exists a, e. split; [exact A1|]. split; [exact E1|]. split; [exact A2|]. split; [exact E2|]. split; [exact M2|]. intros G. rewrite G in W2.
  inversion W2 as [|? ? (x1 & X1 & Y1) V1]; subst. inversion V1 as [|? ? (x2 & X2 & Y2) V2]; subst. inversion V2 as [|? ? (x3 & X3 & Y3) V3]; subst. inversion V3 as [|? ? (x4 & X4 & Y4) _]; subst.
  cbn [fst snd] in *. exists x1, x2, x3, x4. repeat split; assumption.
Qed.

Section Results.
  Variables (f0 : fsys) (cs : list config) (sched : list nat).
  Hypothesis P0 : proper f0.
  Let w := run (begin f0 cs) sched.
  Lemma W_inv : inv f0 w.
  Proof. apply run_inv; [exact P0|apply begin_inv, P0]. Qed.
  Lemma old_kept : forall p, f0 p <> None -> disk w p = f0 p.
  Proof. exact (i_old W_inv). Qed.
  Lemma done_ok : forall i c o, nth_error (calls w) i = Some (c, Done o) -> f0 o = None /\ expected_place c o /\ complete (disk w) o c.
  Proof.
    intros i c o H. destruct (i_local W_inv i H) as [(EP & D & W) O]. split; [apply O; reflexivity|]. split; [exact EP|]. apply all_written; assumption.
  Qed.
  Lemma exclusive : forall i j c c' o o', i <> j -> nth_error (calls w) i = Some (c, Done o) -> nth_error (calls w) j = Some (c', Done o') -> o <> o'.
  Proof. intros i j c c' o o' Hij Hi Hj ->. exact (i_apart W_inv Hij Hi Hj eq_refl eq_refl). Qed.
  Lemma only_there : forall p, disk w p <> f0 p -> exists c o, In c cs /\ expected_place c o /\ (within p o \/ exists n, p = o ++ [n]).
  Proof.
    intros p H. destruct (i_new W_inv p H) as (i & c & s & o & A & B & C). exists c, o. split; [|auto].
    pose proof (configs_kept sched (begin f0 cs)) as Q. fold w in Q. cbn [begin calls] in Q. rewrite map_map in Q. cbn in Q. rewrite map_id in Q. rewrite <- Q. apply nth_error_In in A. apply (in_map fst) in A. exact A.
  Qed.
End Results.

(** ** One call by itself. *)
Lemma steps_app : forall c n m f s, steps c (n + m) f s = let (f', s') := steps c n f s in steps c m f' s'.
Proof. induction n as [|n IH]; intros m f s; [reflexivity|]. cbn [Nat.add steps]. destruct (step c f s). apply IH. Qed.
Lemma steps_one : forall c n f s f' s', step c f s = (f', s') -> steps c (S n) f s = steps c n f' s'.
Proof. intros c n f s f' s' E. cbn [steps]. rewrite E. reflexivity. Qed.

Lemma down_ok : forall p c above f, f [] = Some Dir -> f p = None -> (forall q, within q p -> forall t, f q <> Some (File t)) ->
  exists n f', steps c n f (Down p above) = (f', match above with [] => begin_files c p | q :: r => Up q r end) /\
    f' p = Some Dir /\ (forall x, f x <> None -> f' x = f x) /\ forall x, ~ within x p -> f' x = f x.
Proof.
  induction p as [|b p IH] using rev_ind; intros c above f R N CL; [congruence|].
  assert (W : within p (p ++ [b])) by (exists [b]; reflexivity).
  assert (UP : forall g, g p = Some Dir -> g (p ++ [b]) = None -> step c g (Up (p ++ [b]) above) = (put g (p ++ [b]) Dir, match above with [] => begin_files c (p ++ [b]) | q :: r => Up q r end)).
  { intros g D N'. cbn [step]. unfold mkdir, exists_, parent_error. rewrite N', dirname_app, D. reflexivity. }
  destruct (f p) as [e|] eqn:E.
  - assert (D : f p = Some Dir) by (destruct e as [|t]; [exact E|]; elim (CL p W t); exact E).
    exists 2, (put f (p ++ [b]) Dir). split.
    + cbn [steps]. change (step c f (Down (p ++ [b]) above)) with (f, if exists_ f (dirname (p ++ [b])) then Up (p ++ [b]) above else Down (dirname (p ++ [b])) ((p ++ [b]) :: above)).
      rewrite dirname_app. unfold exists_. rewrite E. rewrite UP by assumption. reflexivity.
    + split; [apply put_same|]. split; [intros x Hx; apply put_other; congruence|]. intros x Hx. apply put_other. intros ->. apply Hx, within_refl.
  - destruct (IH c ((p ++ [b]) :: above) f R E) as (n & f1 & S1 & D1 & K1 & K2).
    { intros q [r ->]. apply CL. exists (r ++ [b]). rewrite <- app_assoc. reflexivity. }
    assert (N1 : f1 (p ++ [b]) = None). { rewrite K2; [exact N|]. intros [r Q]. apply (f_equal (@List.length string)) in Q. rewrite !app_length in Q. cbn in Q. lia. }
    exists (S (n + 1)), (put f1 (p ++ [b]) Dir). split.
    + rewrite (@steps_one c (n + 1) f (Down (p ++ [b]) above) f (Down p ((p ++ [b]) :: above))).
      * rewrite steps_app, S1. cbn [steps]. rewrite UP by assumption. reflexivity.
      * cbn [step]. rewrite dirname_app. unfold exists_. rewrite E. reflexivity.
    + split; [apply put_same|]. split.
      * intros x Hx. rewrite put_other; [apply K1, Hx|]. congruence.
      * intros x Hx. rewrite put_other; [apply K2|].
        { intros [r ->]. apply Hx. exists (r ++ [b]). rewrite <- app_assoc. reflexivity. }
        intros ->. apply Hx, within_refl.
Qed.
Lemma files_ok : forall c o good f rest, f o = Some Dir -> (forall n x, In (n, x) good -> f (o ++ [n]) <> Some Dir /\ exists t, x = Ok t) ->
  exists f', steps c (2 * List.length good) f (Opening o (good ++ rest)) = (f', Opening o rest) /\ f' o = Some Dir /\ forall y, (forall n x, In (n, x) good -> y <> o ++ [n]) -> f' y = f y.
Proof.
  induction good as [|[n x] good IH]; intros f rest D G.
  - exists f. cbn. auto.
  - destruct (G n x (or_introl eq_refl)) as [ND [t ->]].
    set (f1 := put (put f (o ++ [n]) (File "")) (o ++ [n]) (File t)).
    destruct (IH f1 rest) as (f' & S1 & D1 & K1).
    { unfold f1. rewrite !put_other by apply snoc_ne. exact D. }
    { intros m y Hm. split; [|apply (G m y); right; exact Hm]. unfold f1. destruct (path_eq (o ++ [m]) (o ++ [n])) as [Q|Q]; [rewrite Q, put_same; discriminate|]. rewrite !put_other by exact Q. apply (G m y). right. exact Hm. }
    exists f'. split; [|split; [exact D1|]].
    + replace (2 * List.length ((n, Ok t) :: good)) with (S (S (2 * List.length good))) by (cbn; lia). cbn [app].
      rewrite (@steps_one c _ f (Opening o ((n, Ok t) :: good ++ rest)) (put f (o ++ [n]) (File "")) (Writing o n (Ok t) (good ++ rest))).
      * rewrite (@steps_one c _ _ _ f1 (Opening o (good ++ rest))); [exact S1|reflexivity].
      * cbn [step]. unfold open_w, is_dir, parent_error. rewrite dirname_app, D. destruct (f (o ++ [n])) as [[]|]; [congruence|reflexivity|reflexivity].
    + intros y Hy. rewrite K1 by (intros m z Hm; apply (Hy m z); right; exact Hm). unfold f1. rewrite !put_other by (apply (Hy n (Ok t)); left; reflexivity). reflexivity.
Qed.

Section Alone.
  Variables (c : config) (f : fsys) (u : path).
  Hypothesis U : user_dir c = Some u.
  Hypothesis PR : proper f.
  Hypothesis FREE : f (out_dir u c) = None.
  Hypothesis DIRS : forall q t, within q u -> f q <> Some (File t).
  Lemma reach_files : exists n f', steps c n f (start c) = (f', Opening (out_dir u c) (files c)) /\ f' (out_dir u c) = Some Dir /\ (forall m, f' (out_dir u c ++ [m]) = None) /\
    (forall x, f x <> None -> f' x = f x).
  Proof.
    destruct (@down_ok (out_dir u c) c [] f (proj1 PR) FREE) as (n & f' & S1 & D & K1 & K2).
    { intros q [r Q] t. destruct r using rev_ind; [rewrite app_nil_r in Q; subst q; congruence|]. unfold out_dir in Q. rewrite app_assoc in Q. apply tail_inj in Q. destruct Q as [Q _]. apply DIRS. exists r. exact Q. }
    assert (NN : forall m, f' (out_dir u c ++ [m]) = None).
    { intros m. rewrite K2.
      - destruct (f (out_dir u c ++ [m])) eqn:E; [|reflexivity]. destruct PR as [_ PP]. rewrite (PP (out_dir u c) m) in FREE by congruence. discriminate.
      - intros [r Q]. apply (f_equal (@List.length string)) in Q. rewrite !app_length in Q. cbn in Q. lia. }
    assert (S0 : step c f CheckOut = (f, Down (out_dir u c) [])) by (cbn [step]; rewrite U; unfold exists_; rewrite FREE; reflexivity).
    unfold start. rewrite U. destruct (f u) as [e|] eqn:E.
    - assert (Du : f u = Some Dir) by (destruct e as [|t]; [exact E|]; elim (@DIRS u t (within_refl u)); exact E).
      exists (S (S (S n))), f'. split; [|auto].
      rewrite (@steps_one c _ f CheckUser f CheckUserDir) by (cbn [step]; rewrite U; unfold exists_; rewrite E; reflexivity).
      rewrite (@steps_one c _ f CheckUserDir f CheckOut) by (cbn [step]; rewrite U; unfold is_dir; rewrite Du; reflexivity).
      rewrite (@steps_one _ n _ _ _ _ S0). exact S1.
    - exists (S (S n)), f'. split; [|auto].
      rewrite (@steps_one c _ f CheckUser f CheckOut) by (cbn [step]; rewrite U; unfold exists_; rewrite E; reflexivity).
      rewrite (@steps_one _ n _ _ _ _ S0). exact S1.
  Qed.
  Lemma succeeds : (forall n x, In (n, x) (files c) -> exists t, x = Ok t) -> exists n f', steps c n f (start c) = (f', Done (out_dir u c)).
  Proof.
    intros G. destruct reach_files as (n & f1 & S1 & D1 & N1 & _).
    destruct (@files_ok c (out_dir u c) (files c) f1 [] D1) as (f2 & S2 & D2 & _).
    { intros m x Hm. split; [rewrite N1; discriminate|apply (G m x Hm)]. }
    exists (n + (2 * List.length (files c) + 1)), f2. rewrite steps_app, S1, steps_app. rewrite app_nil_r in S2. rewrite S2. reflexivity.
  Qed.
  Lemma leftover : forall good n e rest, files c = good ++ (n, Raise e) :: rest -> (forall m x, In (m, x) good -> exists t, x = Ok t) ->
    exists k f', steps c k f (start c) = (f', Failed (ContentErr e)) /\ f' (out_dir u c) = Some Dir /\ f' (out_dir u c ++ [n]) = Some (File "").
  Proof.
    intros good n e rest Fi G. destruct reach_files as (k & f1 & S1 & D1 & N1 & _).
    destruct (@files_ok c (out_dir u c) good f1 ((n, Raise e) :: rest) D1) as (f2 & S2 & D2 & K2).
    { intros m x Hm. split; [rewrite N1; discriminate|apply (G m x Hm)]. }
    exists (k + (2 * List.length good + 2)), (put f2 (out_dir u c ++ [n]) (File "")). split; [|split; [rewrite put_other by apply snoc_ne; exact D2|apply put_same]].
    rewrite steps_app, S1, Fi, steps_app, S2.
    rewrite (@steps_one c 1 f2 _ (put f2 (out_dir u c ++ [n]) (File "")) (Writing (out_dir u c) n (Raise e) rest)); [reflexivity|].
    cbn [step]. unfold open_w, is_dir, parent_error. rewrite dirname_app, D2. rewrite K2.
    - rewrite N1. reflexivity.
    - intros m x Hm Q. apply tail_inj in Q. destruct Q as [_ ->]. exact (@nodup_names c good m (Raise e) rest Fi (m, x) Hm eq_refl).
  Qed.
End Alone.
Lemma refuses : forall c f u, user_dir c = Some u -> proper f -> (f (out_dir u c) <> None \/ exists t, f u = Some (File t)) ->
  exists n e, steps c n f (start c) = (f, Failed e) /\ (e = Exists \/ e = NotADirectory).
Proof.
  intros c f u U [_ PR] H. unfold start. rewrite U. destruct (f u) as [[|t]|] eqn:E.
  - destruct H as [H|[t H]]; [|congruence]. exists 3, Exists. split; [|auto].
    rewrite (@steps_one c _ f CheckUser f CheckUserDir) by (cbn [step]; rewrite U; unfold exists_; rewrite E; reflexivity).
    rewrite (@steps_one c _ f CheckUserDir f CheckOut) by (cbn [step]; rewrite U; unfold is_dir; rewrite E; reflexivity).
    cbn [steps step]. rewrite U. unfold exists_. destruct (f (out_dir u c)); [reflexivity|congruence].
  - exists 2, NotADirectory. split; [|auto].
    rewrite (@steps_one c _ f CheckUser f CheckUserDir) by (cbn [step]; rewrite U; unfold exists_; rewrite E; reflexivity).
    cbn [steps step]. rewrite U. unfold is_dir. rewrite E. reflexivity.
  - destruct H as [H|[t H]]; [|congruence]. apply PR in H. congruence.
Qed.
Lemma steps_run : forall c n f s, run (mk_world f [(c, s)]) (repeat 0 n) = let (f', s') := steps c n f s in mk_world f' [(c, s')].
Proof.
  induction n as [|n IH]; intros f s; [reflexivity|]. cbn [repeat steps]. unfold run. cbn [fold_left]. fold (run (turn (mk_world f [(c, s)]) 0) (repeat 0 n)).
  unfold turn at 1. cbn [calls nth_error disk]. destruct (step c f s) as [f1 s1]. cbn [upd]. apply IH.
Qed.
Lemma succeeds_run : forall c f u, user_dir c = Some u -> proper f -> f (u ++ [time_str c]) = None -> (forall q t, within q u -> f q <> Some (File t)) ->
  (forall n x, In (n, x) (files c) -> exists t, x = Ok t) -> exists n, calls (run (begin f [c]) (repeat 0 n)) = [(c, Done (u ++ [time_str c]))].
Proof.
  intros c f u U P N D G. destruct (@succeeds c f u U P N D G) as (n & f' & E). exists n. unfold begin. cbn [map]. rewrite steps_run, E. reflexivity.
Qed.
Lemma leftover_run : forall c f u good n e rest, user_dir c = Some u -> proper f -> f (u ++ [time_str c]) = None -> (forall q t, within q u -> f q <> Some (File t)) ->
  files c = good ++ (n, Raise e) :: rest -> (forall m x, In (m, x) good -> exists t, x = Ok t) ->
  exists k, let w := run (begin f [c]) (repeat 0 k) in calls w = [(c, Failed (ContentErr e))] /\ disk w (u ++ [time_str c]) = Some Dir /\ disk w ((u ++ [time_str c]) ++ [n]) = Some (File "").
Proof.
  intros c f u good n e rest U P N D Fi G. destruct (@leftover c f u U P N D good n e rest Fi G) as (k & f' & E & A & B). exists k. unfold begin. cbn [map]. rewrite steps_run, E.
  split; [reflexivity|split; assumption].
Qed.
Lemma refuses_run : forall c f u, user_dir c = Some u -> proper f -> (f (u ++ [time_str c]) <> None \/ exists t, f u = Some (File t)) ->
  exists n e, run (begin f [c]) (repeat 0 n) = mk_world f [(c, Failed e)] /\ (e = Exists \/ e = NotADirectory).
Proof.
  intros c f u U P H. destruct (@refuses c f u U P H) as (n & e & E & Q). exists n, e. unfold begin. cbn [map]. rewrite steps_run, E. auto.
Qed.
Lemma fresh_repo : forall c f u e a v, user_dir c = Some u -> proper f -> f (u ++ [time_str c]) = None -> (forall q t, within q u -> f q <> Some (File t)) ->
  args_json c = Ok a -> environ_json c = Ok v -> under_git c = true -> git_head c = Raise e ->
  exists k, calls (run (begin f [c]) (repeat 0 k)) = [(c, Failed (ContentErr e))].
Proof.
  intros c f u e a v U P N D A V G H.
  destruct (@leftover_run c f u [("args.txt"%string, args_json c); ("environ.txt"%string, environ_json c); ("command.txt"%string, Ok (String.concat " " (argv c)))] "git-head.txt" e
    [("git-status.txt"%string, git_status c); ("git-log.txt"%string, git_log c); ("git-diff.txt"%string, git_diff c)] U P N D) as (k & E & _).
  - unfold files. rewrite G, H. reflexivity.
  - intros m x [Q|[Q|[Q|[]]]]; injection Q as <- <-; eauto.
  - exists k. exact E.
Qed.
