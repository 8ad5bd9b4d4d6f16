(** Proofs about saving and loading agents. *)
From Coq Require Import String Lia.
From Verif Require Import Base.PyBase Model.AttributeSaving Spec.AttributeSavingSpec.
Set Implicit Arguments.
Local Open Scope nat_scope.

(** ** Loops *)
Lemma fe_inv : forall T X (body : T -> X -> res T) xs t t', for_each body t xs = Ok t' ->
  forall x, In x xs -> exists t1 t2, body t1 x = Ok t2.
Proof.
  intros T X body xs. induction xs as [|y xs IH]; intros t t' H x Hx; [destruct Hx|].
  cbn [for_each] in H. destruct (body t y) as [t1|e] eqn:E; [|discriminate].
  destruct Hx as [<-|Hx]; [exists t, t1; exact E|]. exact (IH _ _ H x Hx).
Qed.

Lemma fe_total : forall T X (body : T -> X -> res T) (P : T -> Prop) xs,
  (forall t x, In x xs -> P t -> exists t', body t x = Ok t' /\ P t') ->
  forall t, P t -> exists t', for_each body t xs = Ok t' /\ P t'.
Proof.
  intros T X body P xs. induction xs as [|y xs IH]; intros H t Ht; [exists t; split; [reflexivity|exact Ht]|].
  cbn [for_each]. destruct (H t y (or_introl eq_refl) Ht) as [t1 [-> H1]].
  apply IH; [|exact H1]. intros t2 x Hx. apply H. right. exact Hx.
Qed.

Lemma fe_or : forall T X (body : T -> X -> res T) e xs,
  (forall t x, In x xs -> (exists t', body t x = Ok t') \/ body t x = Raise e) ->
  forall t, (exists t', for_each body t xs = Ok t') \/ for_each body t xs = Raise e.
Proof.
  intros T X body e xs. induction xs as [|y xs IH]; intros H t; [left; exists t; reflexivity|].
  cbn [for_each]. destruct (H t y (or_introl eq_refl)) as [[t1 ->]| ->]; [|right; reflexivity].
  apply IH. intros t2 x Hx. apply H. right. exact Hx.
Qed.

Lemma existsb_in : forall b l, existsb (Nat.eqb b) l = true <-> In b l.
Proof.
  intros b l. rewrite existsb_exists. split.
  - intros [x [Hx E]]. apply Nat.eqb_eq in E. subst. exact Hx.
  - intros H. exists b. split; [exact H|apply Nat.eqb_refl].
Qed.
Lemma existsb_out : forall b l, existsb (Nat.eqb b) l = false <-> ~ In b l.
Proof.
  intros b l. rewrite <- existsb_in. destruct (existsb (Nat.eqb b) l); split; intros H; congruence.
Qed.

(** ** Graphs *)
Lemma reaches_trans : forall g a b c, reaches g a b -> reaches g b c -> reaches g a c.
Proof.
  intros g a b c H. induction H as [a|a b b' Hab H IH]; intros H2; [exact H2|].
  apply reaches_next with b; [exact Hab|exact (IH H2)].
Qed.

Lemma reaches_step : forall g a b c, reaches g a b -> has_agent g b c -> reaches g a c.
Proof.
  intros g a b c H H2. apply (reaches_trans H). apply reaches_next with c; [exact H2|apply reaches_here].
Qed.

Lemma leads_fun : forall g a p l, leads g a p l -> forall l', leads g a p l' -> l = l'.
Proof.
  intros g a p l H. induction H as [a x l Hx E|a x b p l Hx E H IH]; intros l' H'; inversion H'; subst.
  - congruence.
  - congruence.
  - match goal with H : leads _ _ [] _ |- _ => inversion H end.
  - match goal with H : getattr g a x = Agent ?c |- _ => rewrite E in H end. 
    match goal with H : Agent _ = Agent _ |- _ => injection H as <- end. apply IH. assumption.
Qed.

Section S.
Variable V : Type.
Notation contents := (contents V).
Notation fsys := (fsys V).

(** ** Files written by save *)
Definition saves (g : graph) (c : contents) (d : path) (a : nat) (xs : list name) (f f' : fsys) : Prop :=
  (forall x p l, In x xs -> leads g a (x :: p) l -> f' (d ++ x :: p) = Some (c l)) /\
  (forall q, (forall x p l, In x xs -> leads g a (x :: p) l -> q <> d ++ x :: p) -> f' q = f q).

Lemma leads_in : forall g a x p l, leads g a (x :: p) l -> In x (saved g a).
Proof. intros g a x p l H. inversion H; assumption. Qed.

Lemma leads_shape : forall g a p l, leads g a p l -> exists x q, p = x :: q.
Proof. intros g a p l H. inversion H; eauto. Qed.

Lemma for_each_saves : forall g c d a (body : fsys -> name -> res fsys),
  (forall f x f', In x (saved g a) -> body f x = Ok f' -> saves g c d a [x] f f') ->
  forall xs f f', incl xs (saved g a) -> for_each body f xs = Ok f' -> saves g c d a xs f f'.
Proof.
  intros g c d a body Hb xs. induction xs as [|y xs IH]; intros f f' Hi H.
  - cbn [for_each] in H. injection H as <-. split; [intros x p l []|reflexivity].
  - cbn [for_each] in H. destruct (body f y) as [f1|e] eqn:E; [|discriminate].
    assert (Hy : In y (saved g a)) by (apply Hi; left; reflexivity).
    destruct (Hb _ _ _ Hy E) as [B1 B2].
    assert (Hi' : incl xs (saved g a)) by (intros z Hz; apply Hi; right; exact Hz).
    destruct (IH _ _ Hi' H) as [I1 I2]. split.
    + intros x p l Hx Hl. destruct (in_dec string_dec x xs) as [Hin|Hout]; [exact (I1 x p l Hin Hl)|].
      destruct Hx as [<-|Hx]; [|contradiction].
      rewrite I2.
      * apply B1; [left; reflexivity|exact Hl].
      * intros x' p' l' Hx' Hl' Eq. apply app_inv_head in Eq. injection Eq as E1 E2. subst. contradiction.
    + intros q Hq. rewrite I2.
      * apply B2. intros x p l [<-|[]] Hl. apply (Hq y p l); [left; reflexivity|exact Hl].
      * intros x p l Hx Hl. apply (Hq x p l); [right; exact Hx|exact Hl].
Qed.

Lemma save_rec_saves : forall limit g c d anc a f f', save_rec limit g c d anc a f = Ok f' ->
  saves g c d a (saved g a) f f'.
Proof.
  induction limit as [|limit IH]; intros g c d anc a f f' H; [discriminate|].
  cbn [save_rec] in H.
  eapply for_each_saves in H; [exact H| |intros x Hx; exact Hx].
  clear f f' H. intros f x f' Hx H. cbv beta in H.
  destruct (getattr g a x) as [| |b|l] eqn:E.
  - discriminate.
  - injection H as <-. split; [|reflexivity].
    intros y p l [<-|[]] Hl. inversion Hl; congruence.
  - destruct (existsb (Nat.eqb b) (anc ++ [a])); [discriminate|].
    apply IH in H. destruct H as [H1 H2]. split.
    + intros y p l [<-|[]] Hl. inversion Hl as [|a' x' b' p' l' Hx' E' Hl']; [congruence|]. subst.
      assert (b' = b) by congruence. subst b'.
      destruct (leads_shape Hl') as [z [q ->]].
      specialize (H1 z q l (leads_in Hl') Hl'). rewrite <- app_assoc in H1. exact H1.
    + intros q Hq. apply H2. intros z p l Hz Hl Eq. apply (Hq x (z :: p) l (or_introl eq_refl)).
      * apply leads_agent with b; assumption.
      * rewrite Eq, <- app_assoc. reflexivity.
  - injection H as <-. unfold write. split.
    + intros y p l' [<-|[]] Hl. inversion Hl as [a' x' l0 Hx' E'|a' x' b' p' l0 Hx' E' Hl']; [|congruence]. subst.
      assert (l' = l) by congruence. subst l'.
      destruct (list_eq_dec string_dec (d ++ [x]) (d ++ [x])) as [_|N]; [reflexivity|congruence].
    + intros q Hq. destruct (list_eq_dec string_dec q (d ++ [x])) as [->|N]; [|reflexivity].
      exfalso. apply (Hq x [] l (or_introl eq_refl)); [apply leads_leaf; assumption|reflexivity].
Qed.

Lemma save_files : forall limit g (c : contents) d a (f f' : fsys), save limit g c d a f = Ok f' ->
  (forall p l, leads g a p l -> f' (d ++ p) = Some (c l)) /\
  (forall q, (forall p l, leads g a p l -> q <> d ++ p) -> f' q = f q).
Proof.
  intros limit g c d a f f' H. apply save_rec_saves in H. destruct H as [H1 H2]. split.
  - intros p l Hl. destruct (leads_shape Hl) as [x [q ->]]. exact (H1 x q l (leads_in Hl) Hl).
  - intros q Hq. apply H2. intros x p l _ Hl. exact (Hq _ _ Hl).
Qed.

(** ** Cycles *)
Lemma save_rec_fresh : forall limit g (c : contents) d anc a f f', save_rec limit g c d anc a f = Ok f' ->
  forall b y, has_agent g a b -> reaches g b y -> ~ In y (anc ++ [a]).
Proof.
  induction limit as [|limit IH]; intros g c d anc a f f' H b y [x [Hx E]] Hr; [discriminate|].
  cbn [save_rec] in H. destruct (fe_inv _ _ _ H x Hx) as [f1 [f2 B]]. cbv beta in B. rewrite E in B.
  destruct (existsb (Nat.eqb b) (anc ++ [a])) eqn:Eb; [discriminate|].
  apply existsb_out in Eb. inversion Hr as [|b0 b' y0 Hb Hr']; subst; [exact Eb|].
  intros Hin. apply (IH _ _ _ _ _ _ _ B b' y Hb Hr'). apply in_or_app. left. exact Hin.
Qed.

Lemma save_rec_acyclic : forall limit g (c : contents) d anc a f f', save_rec limit g c d anc a f = Ok f' ->
  forall b b', reaches g a b -> has_agent g b b' -> reaches g b' b -> False.
Proof.
  induction limit as [|limit IH]; intros g c d anc a f f' H b b' Hr Hb Hr'; [discriminate|].
  inversion Hr as [|a0 a' b0 Ha Hr2]; subst.
  - apply (@save_rec_fresh _ _ _ _ _ _ _ _ H _ _ Hb Hr'). apply in_or_app. right. left. reflexivity.
  - cbn [save_rec] in H. destruct Ha as [x [Hx E]].
    destruct (fe_inv _ _ _ H x Hx) as [f1 [f2 B]]. cbv beta in B. rewrite E in B.
    destruct (existsb (Nat.eqb a') (anc ++ [a])); [discriminate|].
    exact (IH _ _ _ _ _ _ _ B b b' Hr2 Hb Hr').
Qed.

Lemma save_rec_complete : forall limit g (c : contents) d anc a f f', save_rec limit g c d anc a f = Ok f' -> complete g a.
Proof.
  induction limit as [|limit IH]; intros g c d anc a f f' H b x Hr Hx; [discriminate|].
  cbn [save_rec] in H. inversion Hr as [|a0 a' b0 Ha Hr2]; subst.
  - destruct (fe_inv _ _ _ H x Hx) as [f1 [f2 B]]. cbv beta in B. intros E. rewrite E in B. discriminate.
  - destruct Ha as [y [Hy E]].
    destruct (fe_inv _ _ _ H y Hy) as [f1 [f2 B]]. cbv beta in B. rewrite E in B.
    destruct (existsb (Nat.eqb a') (anc ++ [a])); [discriminate|].
    exact (IH _ _ _ _ _ _ _ B b x Hr2 Hx).
Qed.

Lemma nodup_len : forall (l m : list nat), NoDup l -> incl l m -> length l <= length m.
Proof. intros l m H Hi. apply NoDup_incl_length; assumption. Qed.

Lemma NoDup_snoc : forall (l : list nat) b, NoDup l -> ~ In b l -> NoDup (l ++ [b]).
Proof.
  intros l b H Hb. apply (NoDup_Add (a := b) (l := l)).
  - rewrite <- (app_nil_r l) at 1. apply Add_app.
  - split; assumption.
Qed.

Lemma save_rec_or : forall limit g (c : contents) d dom anc a f,
  NoDup (anc ++ [a]) -> incl (anc ++ [a]) dom -> (forall b, reaches g a b -> In b dom) ->
  length dom <= limit + length anc ->
  (exists f', save_rec limit g c d anc a f = Ok f') \/ save_rec limit g c d anc a f = Raise AssertionError.
Proof.
  induction limit as [|limit IH]; intros g c d dom anc a f Hn Hi Hr Hl.
  - exfalso. pose proof (nodup_len Hn Hi) as L. rewrite app_length in L. cbn [length] in L. lia.
  - cbn [save_rec]. apply fe_or. intros f1 x Hx.
    destruct (getattr g a x) as [| |b|l] eqn:E; [right; reflexivity|left; eauto| |left; eauto].
    destruct (existsb (Nat.eqb b) (anc ++ [a])) eqn:Eb; [right; reflexivity|].
    apply existsb_out in Eb.
    assert (Hab : has_agent g a b) by (exists x; split; assumption).
    apply IH with (dom := dom).
    + apply NoDup_snoc; assumption.
    + intros y Hy. apply in_app_or in Hy. destruct Hy as [Hy|[<-|[]]]; [exact (Hi y Hy)|].
      apply Hr. apply reaches_next with b; [exact Hab|apply reaches_here].
    + intros y Hy. apply Hr. apply reaches_next with b; assumption.
    + rewrite app_length. cbn [length]. lia.
Qed.

Lemma save_or : forall limit g (c : contents) d a f n, at_most g a n -> n <= limit ->
  (exists f', save limit g c d a f = Ok f') \/ save limit g c d a f = Raise AssertionError.
Proof.
  intros limit g c d a f n [dom [Hd Hr]] Hl. apply save_rec_or with (dom := dom).
  - constructor; [intros []|constructor].
  - intros y [<-|[]]. apply Hr. apply reaches_here.
  - exact Hr.
  - cbn [length]. lia.
Qed.

Lemma save_rejects : forall limit g (c : contents) d a f n, at_most g a n -> n <= limit -> cyclic g a ->
  save limit g c d a f = Raise AssertionError.
Proof.
  intros limit g c d a f n Hn Hl [b [b' [H1 [H2 H3]]]].
  destruct (save_or c d f Hn Hl) as [[f' E]|E]; [|exact E].
  exfalso. exact (@save_rec_acyclic _ _ _ _ _ _ _ _ E _ _ H1 H2 H3).
Qed.

(** Success. *)
Lemma acyclic_step : forall g a b, ~ cyclic g a -> has_agent g a b -> ~ cyclic g b.
Proof.
  intros g a b H Hab [x [y [H1 [H2 H3]]]]. apply H. exists x, y. split; [|split; assumption].
  apply reaches_next with b; assumption.
Qed.

Lemma complete_step : forall g a b, complete g a -> has_agent g a b -> complete g b.
Proof. intros g a b H Hab y x Hr Hx. apply H; [apply reaches_next with b; assumption|exact Hx]. Qed.

Lemma save_rec_total : forall limit g (c : contents) d dom anc a f,
  NoDup (anc ++ [a]) -> incl (anc ++ [a]) dom -> (forall b, reaches g a b -> In b dom) ->
  length dom <= limit + length anc -> ~ cyclic g a -> complete g a ->
  (forall y, In y anc -> reaches g y a) ->
  exists f', save_rec limit g c d anc a f = Ok f'.
Proof.
  induction limit as [|limit IH]; intros g c d dom anc a f Hn Hi Hr Hl Hcy Hco Ha.
  - exfalso. pose proof (nodup_len Hn Hi) as L. rewrite app_length in L. cbn [length] in L. lia.
  - cbn [save_rec].
    destruct (@fe_total _ _ (fun f x =>
        match getattr g a x with
        | Missing => Raise AssertionError
        | VNone => Ok f
        | Agent b => if existsb (Nat.eqb b) (anc ++ [a]) then Raise AssertionError
                     else save_rec limit g c (d ++ [x]) (anc ++ [a]) b f
        | Leaf l => Ok (write f (d ++ [x]) (c l))
        end) (fun _ => True) (saved g a)) with (t := f) as [f' [E _]]; [| exact I | exists f'; exact E].
    intros f1 x Hx _.
    destruct (getattr g a x) as [| |b|l] eqn:E; [|eauto| |eauto].
    { exfalso. exact (Hco a x (reaches_here g a) Hx E). }
    assert (Hab : has_agent g a b) by (exists x; split; assumption).
    assert (Eb : ~ In b (anc ++ [a])).
    { intros Hin. apply in_app_or in Hin. destruct Hin as [Hin|[<-|[]]].
      - apply Hcy. exists a, b. split; [apply reaches_here|]. split; [exact Hab|]. exact (Ha b Hin).
      - apply Hcy. exists a, a. split; [apply reaches_here|]. split; [exact Hab|apply reaches_here]. }
    rewrite (proj2 (existsb_out _ _) Eb).
    destruct (IH g c (d ++ [x]) dom (anc ++ [a]) b f1) as [f' E'].
    + apply NoDup_snoc; assumption.
    + intros y Hy. apply in_app_or in Hy. destruct Hy as [Hy|[<-|[]]]; [exact (Hi y Hy)|].
      apply Hr. apply reaches_next with b; [exact Hab|apply reaches_here].
    + intros y Hy. apply Hr. apply reaches_next with b; assumption.
    + rewrite app_length. cbn [length]. lia.
    + exact (acyclic_step Hcy Hab).
    + exact (complete_step Hco Hab).
    + intros y Hy. apply in_app_or in Hy. destruct Hy as [Hy|[<-|[]]].
      * exact (reaches_step (Ha y Hy) Hab).
      * apply reaches_next with b; [exact Hab|apply reaches_here].
    + exists f'. split; [exact E'|exact I].
Qed.

Lemma save_total : forall limit g (c : contents) d a f n, at_most g a n -> n <= limit -> ~ cyclic g a -> complete g a ->
  exists f', save limit g c d a f = Ok f'.
Proof.
  intros limit g c d a f n [dom [Hd Hr]] Hl H1 H2. apply save_rec_total with (dom := dom); try assumption.
  - constructor; [intros []|constructor].
  - intros y [<-|[]]. apply Hr. apply reaches_here.
  - cbn [length]. lia.
  - intros y [].
Qed.

(** ** load *)
Lemma load_total_gen : forall limit g (fs : fsys) d dom anc a c,
  NoDup (anc ++ [a]) -> incl (anc ++ [a]) dom -> (forall b, reaches g a b -> In b dom) ->
  length dom <= limit + length anc -> ~ cyclic g a -> complete g a ->
  (forall y, In y anc -> reaches g y a) ->
  (forall p l, leads g a p l -> fs (d ++ p) <> None) ->
  exists c', load limit g fs d a c = Ok c'.
Proof.
  induction limit as [|limit IH]; intros g fs d dom anc a c Hn Hi Hr Hl Hcy Hco Ha Hf.
  - exfalso. pose proof (nodup_len Hn Hi) as L. rewrite app_length in L. cbn [length] in L. lia.
  - cbn [load].
    destruct (@fe_total _ _ (fun c x =>
        match getattr g a x with
        | Missing => Raise AssertionError
        | VNone => Ok c
        | Agent b => if existsb (Nat.eqb b) [a] then Raise AssertionError
                     else load limit g fs (d ++ [x]) b c
        | Leaf l => let! e := load_npz fs (d ++ [x]) (c l) in Ok (set_leaf c l e)
        end) (fun _ => True) (saved g a)) with (t := c) as [f' [E _]]; [| exact I | exists f'; exact E].
    intros c1 x Hx _.
    destruct (getattr g a x) as [| |b|l] eqn:E; [|eauto| |].
    { exfalso. exact (Hco a x (reaches_here g a) Hx E). }
    + assert (Hab : has_agent g a b) by (exists x; split; assumption).
      assert (Eb : ~ In b (anc ++ [a])).
      { intros Hin. apply in_app_or in Hin. destruct Hin as [Hin|[<-|[]]].
        - apply Hcy. exists a, b. split; [apply reaches_here|]. split; [exact Hab|]. exact (Ha b Hin).
        - apply Hcy. exists a, a. split; [apply reaches_here|]. split; [exact Hab|apply reaches_here]. }
      assert (Eb' : ~ In b [a]) by (intros H; apply Eb; apply in_or_app; right; exact H).
      rewrite (proj2 (existsb_out _ _) Eb').
      destruct (IH g fs (d ++ [x]) dom (anc ++ [a]) b c1) as [f' E'].
      * apply NoDup_snoc; assumption.
      * intros y Hy. apply in_app_or in Hy. destruct Hy as [Hy|[<-|[]]]; [exact (Hi y Hy)|].
        apply Hr. apply reaches_next with b; [exact Hab|apply reaches_here].
      * intros y Hy. apply Hr. apply reaches_next with b; assumption.
      * rewrite app_length. cbn [length]. lia.
      * exact (acyclic_step Hcy Hab).
      * exact (complete_step Hco Hab).
      * intros y Hy. apply in_app_or in Hy. destruct Hy as [Hy|[<-|[]]].
        -- exact (reaches_step (Ha y Hy) Hab).
        -- apply reaches_next with b; [exact Hab|apply reaches_here].
      * intros p l Hp. rewrite <- app_assoc. apply (Hf (x :: p) l). apply leads_agent with b; assumption.
      * exists f'. split; [exact E'|exact I].
    + unfold load_npz. destruct (fs (d ++ [x])) as [e|] eqn:Ef; [eexists; split; [reflexivity|exact I]|].
      exfalso. apply (Hf [x] l); [apply leads_leaf; assumption|exact Ef].
Qed.

Lemma load_total : forall limit g (fs : fsys) d a c n, at_most g a n -> n <= limit -> ~ cyclic g a -> complete g a ->
  (forall p l, leads g a p l -> fs (d ++ p) <> None) -> exists c', load limit g fs d a c = Ok c'.
Proof.
  intros limit g fs d a c n [dom [Hd Hr]] Hl H1 H2 H3. apply load_total_gen with (dom := dom) (anc := []); try assumption.
  - constructor; [intros []|constructor].
  - intros y [<-|[]]. apply Hr. apply reaches_here.
  - cbn [length]. lia.
  - intros y [].
Qed.

Definition merged (s e : option V) : option V := match s with Some v => Some v | None => e end.

Lemma merged_idem : forall s e, merged s (merged s e) = merged s e.
Proof. intros [v|] e; reflexivity. Qed.

Definition loads (g : graph) (c0 : contents) (a : nat) (xs : list name) (c c' : contents) : Prop :=
  (forall l k, c' l k = c l k \/ c' l k = merged (c0 l k) (c l k)) /\
  (forall x p l k, In x xs -> leads g a (x :: p) l -> c' l k = merged (c0 l k) (c l k)) /\
  (forall l, (forall x p, In x xs -> ~ leads g a (x :: p) l) -> forall k, c' l k = c l k).

Lemma for_each_loads : forall g c0 a (body : contents -> name -> res contents),
  (forall c x c', In x (saved g a) -> body c x = Ok c' -> loads g c0 a [x] c c') ->
  forall xs c c', incl xs (saved g a) -> for_each body c xs = Ok c' -> loads g c0 a xs c c'.
Proof.
  intros g c0 a body Hb xs. induction xs as [|y xs IH]; intros c c' Hi H.
  - cbn [for_each] in H. injection H as <-. split; [left; reflexivity|]. split; [intros x p l k []|reflexivity].
  - cbn [for_each] in H. destruct (body c y) as [c1|e] eqn:E; [|discriminate].
    assert (Hy : In y (saved g a)) by (apply Hi; left; reflexivity).
    destruct (Hb _ _ _ Hy E) as [B0 [B1 B2]].
    assert (Hi' : incl xs (saved g a)) by (intros z Hz; apply Hi; right; exact Hz).
    destruct (IH _ _ Hi' H) as [I0 [I1 I2]].
    assert (K : forall l k, c1 l k = merged (c0 l k) (c l k) -> c' l k = merged (c0 l k) (c l k)).
    { intros l k H1. destruct (I0 l k) as [->| ->]; rewrite H1; [reflexivity|apply merged_idem]. }
    split; [|split].
    + intros l k. destruct (B0 l k) as [H1|H1]; [|right; exact (K l k H1)].
      destruct (I0 l k) as [->| ->]; rewrite H1; [left|right]; reflexivity.
    + intros x p l k [<-|Hx] Hl.
      * apply K. apply (B1 y p l k (or_introl eq_refl) Hl).
      * rewrite (I1 x p l k Hx Hl). destruct (B0 l k) as [->| ->]; [reflexivity|apply merged_idem].
    + intros l Hl k. rewrite I2, B2; [reflexivity| |].
      * intros x p [<-|[]]. apply Hl. left. reflexivity.
      * intros x p Hx. apply Hl. right. exact Hx.
Qed.

Lemma load_loads : forall limit g (fs : fsys) (c0 : contents) d a c c', load limit g fs d a c = Ok c' ->
  (forall p l, leads g a p l -> fs (d ++ p) = Some (c0 l)) -> loads g c0 a (saved g a) c c'.
Proof.
  induction limit as [|limit IH]; intros g fs c0 d a c c' H Hf; [discriminate|].
  cbn [load] in H.
  eapply for_each_loads in H; [exact H| |intros x Hx; exact Hx].
  clear c c' H. intros c x c' Hx H. cbv beta in H.
  destruct (getattr g a x) as [| |b|l] eqn:E.
  - discriminate.
  - injection H as <-. split; [left; reflexivity|]. split; [|reflexivity].
    intros y p l k [<-|[]] Hl. inversion Hl; congruence.
  - destruct (existsb (Nat.eqb b) [a]); [discriminate|].
    apply (IH g fs c0) in H.
    2:{ intros p l Hp. rewrite <- app_assoc. apply (Hf (x :: p) l). apply leads_agent with b; assumption. }
    destruct H as [H0 [H1 H2]]. split; [exact H0|]. split.
    + intros y p l k [<-|[]] Hl. inversion Hl as [|a' x' b' p' l' Hx' E' Hl']; [congruence|]. subst.
      assert (b' = b) by congruence. subst b'.
      destruct (leads_shape Hl') as [z [q ->]].
      exact (H1 z q l k (leads_in Hl') Hl').
    + intros l Hq. apply H2. intros z p Hz Hl. apply (Hq x (z :: p) (or_introl eq_refl)).
      apply leads_agent with b; assumption.
  - unfold load_npz in H. rewrite (Hf [x] l (leads_leaf g a x Hx E)) in H. injection H as <-.
    unfold set_leaf. split; [|split].
    + intros j k. destruct (Nat.eqb_spec j l) as [->|N]; [right; reflexivity|left; reflexivity].
    + intros y p l' k [<-|[]] Hl. inversion Hl as [a' x' l0 Hx' E'|a' x' b' p' l0 Hx' E' Hl']; [|congruence]. subst.
      assert (l' = l) by congruence. subst l'. rewrite Nat.eqb_refl. reflexivity.
    + intros j Hj k. destruct (Nat.eqb_spec j l) as [->|N]; [|reflexivity].
      exfalso. apply (Hj x [] (or_introl eq_refl)). apply leads_leaf; assumption.
Qed.

Lemma round_trip : forall limit g (c : contents) d a f n, at_most g a n -> n <= limit -> ~ cyclic g a -> complete g a ->
  exists f', save limit g c d a f = Ok f' /\
  forall c1, exists c2, load limit g f' d a c1 = Ok c2 /\
  (forall l, owns g a l -> (forall k v, c l k = Some v -> c2 l k = Some v) /\ (forall k, c l k = None -> c2 l k = c1 l k)) /\
  (forall l, ~ owns g a l -> forall k, c2 l k = c1 l k).
Proof.
  intros limit g c d a f n Hn Hl Hcy Hco.
  destruct (save_total c d f Hn Hl Hcy Hco) as [f' Es]. exists f'. split; [exact Es|].
  destruct (@save_files _ _ _ _ _ _ _ Es) as [F _]. intros c1.
  destruct (@load_total limit g f' d a c1 n Hn Hl Hcy Hco) as [c2 El].
  { intros p l Hp. rewrite (F p l Hp). discriminate. }
  exists c2. split; [exact El|].
  destruct (@load_loads _ _ _ _ _ _ _ _ El F) as [_ [L1 L2]]. split.
  - intros l [p Hp]. destruct (leads_shape Hp) as [x [q ->]].
    split; intros k; [intros v|]; intros E; rewrite (L1 x q l k (leads_in Hp) Hp), E; reflexivity.
  - intros l Ho. apply L2. intros x p _ Hp. apply Ho. exists (x :: p). exact Hp.
Qed.

(** load never succeeds on a cycle. *)
Lemma load_deep : forall limit g (fs : fsys) d a c c', load limit g fs d a c = Ok c' ->
  forall b, has_agent g a b -> exists limit' d' c1 c2, limit = S limit' /\ load limit' g fs d' b c1 = Ok c2.
Proof.
  intros [|limit] g fs d a c c' H b [x [Hx E]]; [discriminate|].
  cbn [load] in H. destruct (fe_inv _ _ _ H x Hx) as [c1 [c2 B]]. cbv beta in B. rewrite E in B.
  destruct (existsb (Nat.eqb b) [a]); [discriminate|].
  exists limit, (d ++ [x]), c1, c2. split; [reflexivity|exact B].
Qed.

Lemma load_reach : forall g a b, reaches g a b -> forall limit (fs : fsys) d c c', load limit g fs d a c = Ok c' ->
  exists limit' d' c1 c2, limit' <= limit /\ load limit' g fs d' b c1 = Ok c2.
Proof.
  intros g a b H. induction H as [a|a b b' Hab H IH]; intros limit fs d c c' E.
  - exists limit, d, c, c'. split; [lia|exact E].
  - destruct (@load_deep _ _ _ _ _ _ _ E _ Hab) as [n [d1 [c1 [c2 [-> E1]]]]].
    destruct (IH n fs d1 c1 c2 E1) as [n' [d2 [c3 [c4 [L E2]]]]].
    exists n', d2, c3, c4. split; [lia|exact E2].
Qed.

Lemma load_cyclic : forall g a, cyclic g a -> forall limit (fs : fsys) d c c', load limit g fs d a c <> Ok c'.
Proof.
  intros g a [b [b' [H1 [H2 H3]]]] limit fs d c c' E.
  destruct (@load_reach _ _ _ H1 _ _ _ _ _ E) as [n [d1 [c1 [c2 [_ E1]]]]]. clear - H2 H3 E1.
  revert d1 c1 c2 E1. induction n as [n IH] using lt_wf_ind. intros d1 c1 c2 E1.
  destruct (@load_deep _ _ _ _ _ _ _ E1 _ H2) as [m [d2 [c3 [c4 [-> E2]]]]].
  destruct (@load_reach _ _ _ H3 _ _ _ _ _ E2) as [m' [d3 [c5 [c6 [L E3]]]]].
  apply (IH m' ltac:(lia) _ _ _ E3).
Qed.
End S.
