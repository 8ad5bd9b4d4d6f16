(** Proofs for C89. *)
From Coq Require Import List Arith Bool Lia.
From Verif Require Import Base.PyBase Model.PretrainedModels Spec.PretrainedSpec.
Import ListNotations.

Lemma unpacked_app : forall a n m d, unpacked (a ++ [(m, d)]) n = if n =? m then Some d else unpacked a n.
Proof. induction a as [|[m' d'] a IH]; intros; cbn [app unpacked]; [reflexivity|]. rewrite IH. destruct (n =? m); reflexivity. Qed.
Lemma unpacked_in : forall z n d, unpacked z n = Some d -> In (n, d) z.
Proof.
  induction z as [|[m e] z IH]; intros n d H; [discriminate|]. cbn [unpacked] in H. destruct (unpacked z n) eqn:U.
  - injection H as ->. right. auto.
  - destruct (n =? m) eqn:E; [|discriminate]. apply Nat.eqb_eq in E. injection H as ->. subst. left. reflexivity.
Qed.
Section P.
Context {K : Type}.
Variable Keq : forall a b : K, {a = b} + {a <> b}.
Variable hash : K -> nat.
Variable served : K -> list (nat * nat).
Hypothesis inj : forall k k', hash k = hash k' -> k = k'.
Notation exec := (exec Keq hash served).
Notation step := (step Keq hash served).
Notation run := (run Keq hash served).
Notation complete := (complete served).

Definition in_dl (c : pc K) : bool := match c with CheckCache _ _ | Moving _ _ => true | _ => false end.
Definition locks (s : sys K) : Prop := (forall p, in_store (pcs s p) = true <-> models_lock s = Some p) /\ (forall p, in_dl (pcs s p) = true <-> dl_lock s = Some p).
Definition noext (s : sys K) (k : K) : Prop := forall p l, pcs s p <> Extracting k l.
Definition finished (s : sys K) (k : K) : Prop := store s k <> None /\ noext s k /\ complete s k.
Definition fact (s : sys K) (c : pc K) : Prop :=
  match c with
  | WantDl true k | CheckCache true k | Mkdtemp true k | Fetching true k | WantMove true k | Moving true k | Failing true k => store s k = None
  | Cleanup true k | Renaming k => store s k = None /\ cache s (hash k) <> None
  | Extracting k l => store s k <> None /\ exists dn, served k = dn ++ l /\ forall n, files s k n = unpacked dn n
  | Leaving k true | Returned k true => store s k <> None
  | Leaving k false | Returned k false => finished s k
  | _ => True
  end.
Record inv (s : sys K) : Prop := mk_inv {
  i_l : locks s;
  i_c : forall k z, cache s (hash k) = Some z -> z = served k;
  i_s : forall k z, store s k = Some z -> z = served k;
  i_e : forall k, store s k = None -> forall n, files s k n = None;
  i_f : forall k n d, files s k n = Some d -> In (n, d) (served k);
  i_p : forall p, fact s (pcs s p) }.

(** The locks. *)
Ltac pids := repeat match goal with
  | |- context [Nat.eqb ?a ?b] => destruct (Nat.eqb_spec a b); subst
  | H : context [Nat.eqb ?a ?b] |- _ => destruct (Nat.eqb_spec a b); subst
  end.
Lemma locks_at : forall s p c s', locks s -> pcs s' = pcs (at_pc s p c) ->
  (in_store c = true -> models_lock s' = Some p) -> (in_store c = false -> models_lock s' = release p (models_lock s)) -> (in_store c = true -> in_store (pcs s p) = true \/ models_lock s = None) ->
  (in_dl c = true -> dl_lock s' = Some p) -> (in_dl c = false -> dl_lock s' = release p (dl_lock s)) -> (in_dl c = true -> in_dl (pcs s p) = true \/ dl_lock s = None) -> locks s'.
Proof.
  intros s p c s' [LM LD] EP M1 M2 M3 D1 D2 D3. split; intros q; rewrite EP; cbn [at_pc pcs].
  - destruct (Nat.eqb_spec q p) as [->|NE].
    + destruct (in_store c); [split; auto|]. rewrite M2 by reflexivity. split; [discriminate|]. unfold release. destruct (models_lock s) as [r|]; [|discriminate]. destruct (Nat.eqb_spec r p); [discriminate|]. intros X. congruence.
    + rewrite LM. destruct (in_store c).
      * rewrite M1 by reflexivity. split; [|intros X; congruence]. intros X. exfalso. destruct (M3 eq_refl) as [Y|Y]; [apply LM in Y; congruence|congruence].
      * rewrite M2 by reflexivity. unfold release. destruct (models_lock s) as [r|]; [|tauto]. destruct (Nat.eqb_spec r p); [|tauto]. split; [intros X; congruence|discriminate].
  - destruct (Nat.eqb_spec q p) as [->|NE].
    + destruct (in_dl c); [split; auto|]. rewrite D2 by reflexivity. split; [discriminate|]. unfold release. destruct (dl_lock s) as [r|]; [|discriminate]. destruct (Nat.eqb_spec r p); [discriminate|]. intros X. congruence.
    + rewrite LD. destruct (in_dl c).
      * rewrite D1 by reflexivity. split; [|intros X; congruence]. intros X. exfalso. destruct (D3 eq_refl) as [Y|Y]; [apply LD in Y; congruence|congruence].
      * rewrite D2 by reflexivity. unfold release. destruct (dl_lock s) as [r|]; [|tauto]. destruct (Nat.eqb_spec r p); [|tauto]. split; [intros X; congruence|discriminate].
Qed.
Lemma keep_release : forall p o, o <> Some p -> release p o = o.
Proof. intros p [r|] H; [|reflexivity]. cbn. destruct (Nat.eqb_spec r p); [congruence|reflexivity]. Qed.
Lemma drop_release : forall p, release p (Some p) = None.
Proof. intros. cbn. rewrite Nat.eqb_refl. reflexivity. Qed.
Lemma exec_locks : forall s e, locks s -> locks (exec s e).
Proof.
  intros s e L. pose proof L as [LM LD].
  assert (NM : forall p, in_store (pcs s p) = false -> release p (models_lock s) = models_lock s) by (intros p H; apply keep_release; intros X; apply LM in X; congruence).
  assert (ND : forall p, in_dl (pcs s p) = false -> release p (dl_lock s) = dl_lock s) by (intros p H; apply keep_release; intros X; apply LD in X; congruence).
  assert (YM : forall p, in_store (pcs s p) = true -> models_lock s = Some p) by (intros p; apply LM).
  assert (YD : forall p, in_dl (pcs s p) = true -> dl_lock s = Some p) by (intros p; apply LD).
  assert (RM : forall p, in_store (pcs s p) = true -> release p (models_lock s) = None) by (intros p H; rewrite (YM p H); apply drop_release).
  assert (RD : forall p, in_dl (pcs s p) = true -> release p (dl_lock s) = None) by (intros p H; rewrite (YD p H); apply drop_release).
  destruct e as [p k|p k|p|p|p]; cbn [exec PretrainedModels.exec]; try (specialize (NM p); specialize (ND p); specialize (YM p); specialize (YD p); specialize (RM p); specialize (RD p)).
  - destruct (resting (pcs s p)) eqn:R; [|exact L]. destruct (pcs s p) eqn:E; try discriminate R; cbn in *; (eapply locks_at; [exact L|reflexivity|..]; cbn; intros; try discriminate; auto; symmetry; auto).
  - destruct (resting (pcs s p)) eqn:R; [|exact L]. destruct (pcs s p) eqn:E; try discriminate R; cbn in *; (eapply locks_at; [exact L|reflexivity|..]; cbn; intros; try discriminate; auto; symmetry; auto).
  - unfold PretrainedModels.step. destruct (pcs s p) eqn:E; cbn in NM, ND, YM, YD, RM, RD; try exact L;
      try (destruct (models_lock s) eqn:ML; [exact L|]); try (destruct (dl_lock s) eqn:DL; [exact L|]);
      try (destruct (store s k) eqn:ST); try (destruct (cache s (hash k)) eqn:CA); try (destruct l as [|[n d] l]); try destruct b;
      (eapply locks_at; [exact L|reflexivity|..]; cbn; intros; try discriminate; rewrite ?E; cbn; auto; symmetry; auto).
  - unfold fail. destruct (pcs s p) eqn:E; cbn in NM, ND, YM, YD, RM, RD; try exact L; try destruct b; (eapply locks_at; [exact L|reflexivity|..]; cbn; intros; try discriminate; rewrite ?E; cbn; auto; symmetry; auto).
  - eapply locks_at; [exact L|reflexivity|..]; cbn; intros; try discriminate; auto.
Qed.
Lemma only_one : forall s p q, locks s -> in_store (pcs s p) = true -> in_store (pcs s q) = true -> p = q.
Proof. intros s p q [LM _] H1 H2. apply LM in H1. apply LM in H2. congruence. Qed.
Lemma noext_at : forall s s' p c k, noext s k -> pcs s' = pcs (at_pc s p c) -> (forall l, c <> Extracting k l) -> noext s' k.
Proof. intros s s' p c k N EP H q l X. rewrite EP in X. cbn in X. destruct (q =? p); [exact (H l X)|exact (N q l X)]. Qed.
Lemma noext_back : forall s s' p c k, noext s k -> pcs s' = pcs (at_pc s p c) -> (forall l, c = Extracting k l -> exists l', pcs s p = Extracting k l') -> noext s' k.
Proof. intros s s' p c k N EP H. apply (noext_at s s' p c k N EP). intros l X. destruct (H l X) as [l' Y]. exact (N p l' Y). Qed.
Lemma fact_keep : forall s s' c0, cache s' = cache s -> store s' = store s -> files s' = files s -> (forall k, finished s k -> noext s' k) -> fact s c0 -> fact s' c0.
Proof.
  intros s s' c0 EC ES EF N F. destruct c0; cbn [fact] in *; try (destruct b); try (destruct cached); unfold finished, PretrainedSpec.complete in *; rewrite ?EC, ?ES, ?EF; auto;
    (destruct F as (F1 & F2 & F3); split; [exact F1|split; [apply N; repeat split; auto|exact F3]]).
Qed.
Lemma inv_keep : forall s s' p c, inv s -> locks s' -> cache s' = cache s -> store s' = store s -> files s' = files s -> pcs s' = pcs (at_pc s p c) ->
  (forall k l, c = Extracting k l -> exists l', pcs s p = Extracting k l') -> fact s' c -> inv s'.
Proof.
  intros s s' p c I L EC ES EF EP X F. destruct I as [IL IC IS IE IF IP]. constructor; auto; try (rewrite ?EC, ?ES, ?EF; assumption).
  intros q. rewrite EP. cbn. destruct (q =? p); [exact F|]. apply (fact_keep s); auto. intros k (_ & N & _). apply (noext_back s s' p c k N EP). intros l Y. exact (X k l Y).
Qed.
Lemma other_fact : forall s s' q, locks s -> in_store (pcs s q) = false -> (forall k, finished s k -> finished s' k) -> (forall k, store s k <> None -> store s' k <> None) -> fact s (pcs s q) -> fact s' (pcs s q).
Proof. intros s s' q L H N ST F. destruct (pcs s q); cbn in *; try discriminate; auto; try (destruct b; discriminate); try (destruct b; [discriminate|exact I]). destruct cached; auto. Qed.
Lemma exec_inv : forall s e, inv s -> inv (exec s e).
Proof.
  intros s e I. pose proof (exec_locks s e (i_l s I)) as L'. pose proof I as [L IC IS IE IF IP].
  assert (OUT : forall p q, in_store (pcs s p) = true -> q <> p -> in_store (pcs s q) = false).
  { intros p q H NE. destruct (in_store (pcs s q)) eqn:X; [|reflexivity]. exfalso. apply NE. exact (only_one s q p L X H). }
  destruct e as [p k|p k|p|p|p]; cbn [PretrainedModels.exec] in *.
  - destruct (resting (pcs s p)); [|exact I]. apply (inv_keep s _ p (WantModels k)); auto; try discriminate; try exact Logic.I.
  - destruct (resting (pcs s p)); [|exact I]. apply (inv_keep s _ p (WantDl false k)); auto; try discriminate; try exact Logic.I.
  - specialize (IP p) as F. unfold PretrainedModels.step in *. destruct (pcs s p) eqn:E; cbn [fact] in F; try exact I.
    + destruct (models_lock s); [exact I|]. eapply (inv_keep s _ p (Check k)); auto; try discriminate; try exact Logic.I.
    + destruct (store s k) eqn:ST; [apply (inv_keep s _ p (Leaving k true))|apply (inv_keep s _ p (WantDl true k))]; auto; try discriminate; cbn; congruence.
    + destruct (dl_lock s); [exact I|]. eapply (inv_keep s _ p (CheckCache b k)); auto; try discriminate; try (destruct b; [exact F|exact Logic.I]).
    + destruct (cache s (hash k)) eqn:CA.
      * apply (inv_keep s _ p (after_download b k)); auto; try (destruct b; discriminate). destruct b; [|exact Logic.I]. cbn. split; [exact F|congruence].
      * apply (inv_keep s _ p (Mkdtemp b k)); auto; try discriminate; try (destruct b; [exact F|exact Logic.I]).
    + apply (inv_keep s _ p (Fetching b k)); auto; try discriminate; try (destruct b; [exact F|exact Logic.I]).
    + apply (inv_keep s _ p (WantMove b k)); auto; try discriminate; try (destruct b; [exact F|exact Logic.I]).
    + destruct (dl_lock s); [exact I|]. apply (inv_keep s _ p (Moving b k)); auto; try discriminate; try (destruct b; [exact F|exact Logic.I]).
    + (* Moving *) constructor; auto.
      * intros k' z. cbn. destruct (Nat.eqb_spec (hash k') (hash k)) as [H|H]; [apply inj in H; subst; congruence|apply IC].
      * intros q. cbn [at_pc pcs with_dl with_cache]. destruct (Nat.eqb_spec q p) as [->|NE].
        -- destruct b; [|exact Logic.I]. cbn. split; [exact F|]. rewrite Nat.eqb_refl. discriminate.
        -- specialize (IP q). assert (N : forall k', finished s k' -> noext (at_pc (with_dl (with_cache s (hash k) (Some (served k))) None) p (Cleanup b k)) k').
           { intros k' (_ & N & _). apply (noext_at s _ p (Cleanup b k) k' N); [reflexivity|discriminate]. }
           destruct (pcs s q); cbn [fact] in *; auto; try (destruct b0; auto); try (destruct cached; auto); try (destruct IP as [IP1 IP2]; split; [exact IP1|]; cbn; destruct (hash k0 =? hash k); [discriminate|exact IP2]);
           (pose proof (N _ IP) as NN; destruct IP as (IP1 & IP2 & IP3); split; [exact IP1|split; [exact NN|exact IP3]]).
    + apply (inv_keep s _ p (after_download b k)); auto; destruct b; try discriminate; cbn; auto.
    + apply (inv_keep s _ p (Raised k)); auto; try (destruct b; reflexivity); try discriminate; exact Logic.I.
    + (* Renaming *) destruct F as [F1 F2]. destruct (cache s (hash k)) as [z|] eqn:CA; [|congruence]. pose proof (IC k z CA) as ->.
      assert (OUTP : forall q, q <> p -> in_store (pcs s q) = false) by (intros q NE; apply (OUT p q); [rewrite E; reflexivity|exact NE]).
      constructor; auto.
      * intros k' z. cbn. destruct (Nat.eqb_spec (hash k') (hash k)); [discriminate|apply IC].
      * intros k' z. cbn. destruct (Keq k' k) as [->|]; [congruence|apply IS].
      * intros k'. cbn. destruct (Keq k' k) as [->|]; [discriminate|apply IE].
      * intros q. cbn [at_pc pcs with_store with_cache]. destruct (Nat.eqb_spec q p) as [->|NE].
        -- cbn. destruct (Keq k k) as [_|]; [|congruence]. split; [discriminate|]. exists []. split; [reflexivity|]. intros n. rewrite (IE k F1). reflexivity.
        -- apply (other_fact s); auto.
           ++ intros k' (A & B & C). split; [cbn; destruct (Keq k' k); [discriminate|exact A]|]. split; [|exact C]. apply (noext_at s _ p (Extracting k (served k)) k' B); [reflexivity|]. intros l X. injection X as -> _. congruence.
           ++ intros k' A. cbn. destruct (Keq k' k); [discriminate|exact A].
    + (* Extracting *) destruct F as (F1 & dn & F2 & F3).
      assert (OUTP : forall q, q <> p -> in_store (pcs s q) = false) by (intros q NE; apply (OUT p q); [rewrite E; reflexivity|exact NE]).
      destruct l as [|[n d] l].
      * apply (inv_keep s _ p (Leaving k false)); auto; try discriminate. cbn. split; [exact F1|]. split.
        -- intros q l X. cbn in X. destruct (Nat.eqb_spec q p); [discriminate|]. pose proof (OUTP q n) as Y. rewrite X in Y. discriminate.
        -- intros n. cbn. rewrite F3, F2, app_nil_r. reflexivity.
      * constructor; auto.
        -- intros k' H n'. cbn in *. destruct (Keq k' k) as [->|]; [congruence|apply IE; exact H].
        -- intros k' n' d'. cbn. destruct (Keq k' k) as [->|]; [|apply IF]. destruct (Nat.eqb_spec n' n) as [->|]; [|apply IF]. intros X. injection X as <-. rewrite F2. apply in_or_app. right. left. reflexivity.
        -- intros q. cbn [at_pc pcs with_file]. destruct (Nat.eqb_spec q p) as [->|NE].
           ++ cbn. split; [exact F1|]. exists (dn ++ [(n, d)]). split; [rewrite F2, <- app_assoc; reflexivity|]. intros n'. destruct (Keq k k); [|congruence]. rewrite unpacked_app, F3. reflexivity.
           ++ apply (other_fact s); auto. intros k' (A & B & C). split; [exact A|]. assert (NK : k' <> k) by (intros ->; exact (B p _ E)). split.
              ** apply (noext_at s _ p (Extracting k l) k' B); [reflexivity|]. intros l' X. injection X as -> _. congruence.
              ** intros n'. cbn. destruct (Keq k' k); [congruence|apply C].
    + apply (inv_keep s _ p (Returned k cached)); auto; try discriminate. destruct cached; [exact F|]. cbn in *. destruct F as (A & B & C). split; [exact A|]. split; [|exact C]. apply (noext_at s _ p (Returned k false) k B); [reflexivity|discriminate].
  - specialize (IP p) as F. unfold fail in *. destruct (pcs s p) eqn:E; try exact I.
    + apply (inv_keep s _ p (Failing b k)); auto; try discriminate; try (destruct b; [exact F|exact Logic.I]).
    + apply (inv_keep s _ p (Raised k)); auto; try discriminate; try exact Logic.I.
  - apply (inv_keep s _ p Idle); auto; try discriminate; try exact Logic.I.
Qed.
Lemma fresh_inv : inv fresh_disk.
Proof. constructor; cbn; try discriminate; auto. split; intros; split; discriminate. Qed.
Lemma run_inv : forall es s, inv s -> inv (run s es).
Proof. induction es as [|e es IH]; intros s I; cbn; auto. apply IH. apply exec_inv. exact I. Qed.
Lemma reach_inv : forall es, inv (run fresh_disk es).
Proof. intros. apply run_inv. apply fresh_inv. Qed.
Definition settled (s : sys K) (k : K) : Prop := store s k <> None /\ noext s k.
(** What one event does to the process it is about. *)
Definition actor (e : event K) : nat := match e with Call p _ | CallCached p _ | Step p | Fail p | Crash p => p end.
Lemma exec_others : forall s e q, q <> actor e -> pcs (exec s e) q = pcs s q.
Proof. clear inj.
  intros s e q NE. apply Nat.eqb_neq in NE. destruct e as [p k|p k|p|p|p]; cbn [actor] in NE; cbn [PretrainedModels.exec].
  - destruct (resting _); cbn; rewrite ?NE; reflexivity.
  - destruct (resting _); cbn; rewrite ?NE; reflexivity.
  - unfold PretrainedModels.step. destruct (pcs s p); try reflexivity; try destruct (models_lock s); try destruct (dl_lock s); try destruct (store s k); try (destruct (cache s (hash k))); try (destruct l as [|[? ?] ?]); try destruct b; cbn; rewrite ?NE; reflexivity.
  - unfold fail. destruct (pcs s p); cbn; rewrite ?NE; reflexivity.
  - cbn. rewrite NE. reflexivity.
Qed.
Lemma exec_extracting : forall s e k l, pcs (exec s e) (actor e) = Extracting k l -> pcs s (actor e) = Renaming k \/ exists l', pcs s (actor e) = Extracting k l'.
Proof.
  intros s e k0 l0. destruct e as [p k|p k|p|p|p]; cbn [actor]; cbn [PretrainedModels.exec].
  - destruct (resting (pcs s p)) eqn:R; cbn; rewrite ?Nat.eqb_refl; try discriminate. eauto.
  - destruct (resting (pcs s p)) eqn:R; cbn; rewrite ?Nat.eqb_refl; try discriminate. eauto.
  - unfold PretrainedModels.step. destruct (pcs s p) eqn:E; try (rewrite E; discriminate); try destruct (models_lock s); try destruct (dl_lock s); try destruct (store s k); try (destruct (cache s (hash k))); try (destruct l as [|[? ?] ?]); try destruct b; cbn; rewrite ?Nat.eqb_refl, ?E; try discriminate;
      intros H; injection H as <- <-; eauto.
  - unfold fail. destruct (pcs s p) eqn:E; cbn; rewrite ?Nat.eqb_refl, ?E; try discriminate; eauto.
  - cbn. rewrite Nat.eqb_refl. discriminate.
Qed.
Lemma exec_store : forall s e k, store (exec s e) k = store s k \/ (pcs s (actor e) = Renaming k /\ exists l, pcs (exec s e) (actor e) = Extracting k l).
Proof.
  intros s e k0. destruct e as [p k|p k|p|p|p]; cbn [actor]; cbn [PretrainedModels.exec].
  - destruct (resting _); left; reflexivity.
  - destruct (resting _); left; reflexivity.
  - unfold PretrainedModels.step. destruct (pcs s p) eqn:E; try (left; reflexivity); try destruct (models_lock s); try destruct (dl_lock s); try destruct (store s k); try (destruct (cache s (hash k))); try (destruct l as [|[? ?] ?]); try destruct b; try (left; reflexivity);
      (cbn; rewrite ?Nat.eqb_refl; destruct (Keq k0 k) as [->|]; [right; eauto|left; reflexivity]).
  - unfold fail. destruct (pcs s p) eqn:E; left; reflexivity.
  - left. reflexivity.
Qed.
Lemma exec_files : forall s e k, (forall l, pcs s (actor e) <> Extracting k l) -> forall n, files (exec s e) k n = files s k n.
Proof.
  intros s e k0. destruct e as [p k|p k|p|p|p]; cbn [actor]; cbn [PretrainedModels.exec]; intros H n0.
  - destruct (resting _); reflexivity.
  - destruct (resting _); reflexivity.
  - unfold PretrainedModels.step. destruct (pcs s p) eqn:E; try reflexivity; try destruct (models_lock s); try destruct (dl_lock s); try destruct (store s k); try (destruct (cache s (hash k))); try (destruct l as [|[? ?] ?]); try destruct b; try reflexivity.
    all: cbn; destruct (Keq k0 k) as [->|]; [|reflexivity]; exfalso; eapply H; reflexivity.
  - unfold fail. destruct (pcs s p) eqn:E; reflexivity.
  - reflexivity.
Qed.
Lemma settled_exec : forall s e k, inv s -> settled s k -> settled (exec s e) k /\ forall n, files (exec s e) k n = files s k n.
Proof.
  intros s e k I [ST N]. split; [|apply exec_files; intros l; apply N]. split.
  - destruct (exec_store s e k) as [->|[R _]]; [exact ST|]. pose proof (i_p s I (actor e)) as F. rewrite R in F. destruct F. congruence.
  - intros q l X. destruct (Nat.eq_dec q (actor e)) as [->|NE]; [|rewrite exec_others in X by exact NE; exact (N q l X)].
    apply exec_extracting in X. destruct X as [X|[l' X]]; [|exact (N _ _ X)]. pose proof (i_p s I (actor e)) as F. rewrite X in F. destruct F. congruence.
Qed.
Lemma settled_run : forall es s k, inv s -> settled s k -> settled (run s es) k /\ forall n, files (run s es) k n = files s k n.
Proof.
  induction es as [|e es IH]; intros s k I S1; [auto|]. cbn [PretrainedModels.run fold_left]. destruct (settled_exec s e k I S1) as [S2 F]. destruct (IH (exec s e) k (exec_inv s e I) S2) as [S3 F2]. unfold PretrainedModels.run in *. split; [exact S3|]. intros n. rewrite F2, F. reflexivity.
Qed.
Lemma finished_run : forall es s k, inv s -> finished s k -> finished (run s es) k.
Proof. intros es s k I (A & B & C). destruct (settled_run es s k I (conj A B)) as [[S1 S2] F]. split; [exact S1|]. split; [exact S2|]. intros n. rewrite F. apply C. Qed.

(** Without interruptions while unpacking. *)
Definition prompt (s : sys K) (k : K) : Prop := (store s k = None \/ finished s k \/ exists p l, pcs s p = Extracting k l) /\ forall p c, pcs s p = Returned k c -> finished s k.
Lemma finished_exec : forall s e k, inv s -> finished s k -> finished (exec s e) k.
Proof. intros s e k I F. exact (finished_run [e] s k I F). Qed.
Lemma exec_returned : forall s e k c, pcs (exec s e) (actor e) = Returned k c -> pcs s (actor e) = Returned k c \/ pcs s (actor e) = Leaving k c.
Proof.
  intros s e k0 c0. destruct e as [p k|p k|p|p|p]; cbn [actor]; cbn [PretrainedModels.exec].
  - destruct (resting (pcs s p)) eqn:R; cbn; rewrite ?Nat.eqb_refl; try discriminate. auto.
  - destruct (resting (pcs s p)) eqn:R; cbn; rewrite ?Nat.eqb_refl; try discriminate. auto.
  - unfold PretrainedModels.step. destruct (pcs s p) eqn:E; try (rewrite E; auto); try destruct (models_lock s); try destruct (dl_lock s); try destruct (store s k); try (destruct (cache s (hash k))); try (destruct l as [|[? ?] ?]); try destruct b; cbn; rewrite ?Nat.eqb_refl, ?E; try discriminate; auto.
    all: intros H; injection H as <- <-; eauto.
  - unfold fail. destruct (pcs s p) eqn:E; cbn; rewrite ?Nat.eqb_refl, ?E; try discriminate; auto.
  - cbn. rewrite Nat.eqb_refl. discriminate.
Qed.
Lemma prompt_exec : forall s e k, inv s -> match e with Fail p | Crash p => forall l, pcs s p <> Extracting k l | _ => True end -> prompt s k -> prompt (exec s e) k.
Proof.
  intros s e k I U [P1 P2]. pose proof (exec_inv s e I) as I'. split.
  - destruct P1 as [P1|[P1|[p [l P1]]]].
    + destruct (exec_store s e k) as [E|[R [l E]]]; [left; congruence|right; right; eauto].
    + right. left. apply finished_exec; auto.
    + destruct (Nat.eq_dec p (actor e)) as [->|NE]; [|right; right; exists p, l; rewrite exec_others by exact NE; exact P1].
      destruct e as [p k'|p k'|p|p|p]; cbn [actor] in *.
      * right. right. exists p, l. cbn [PretrainedModels.exec]. rewrite P1. exact P1.
      * right. right. exists p, l. cbn [PretrainedModels.exec]. rewrite P1. exact P1.
      * destruct l as [|[n d] l].
        -- right. left. pose proof (i_p _ I' p) as F. cbn [PretrainedModels.exec] in F |- *. unfold PretrainedModels.step in F |- *. rewrite P1 in F |- *. cbn in F. rewrite Nat.eqb_refl in F. exact F.
        -- right. right. exists p, l. cbn [PretrainedModels.exec]. unfold PretrainedModels.step. rewrite P1. cbn. rewrite Nat.eqb_refl. reflexivity.
      * exfalso. exact (U _ P1).
      * exfalso. exact (U _ P1).
  - intros q c X. assert (Y : pcs s q = Returned k c \/ pcs s q = Leaving k c).
    { destruct (Nat.eq_dec q (actor e)) as [->|NE]; [apply exec_returned; exact X|left; rewrite <- (exec_others s e) by exact NE; exact X]. }
    apply finished_exec; auto. destruct Y as [Y|Y]; [exact (P2 q c Y)|]. pose proof (i_p s I q) as F. rewrite Y in F. destruct c; [|exact F]. cbn in F.
    destruct P1 as [P1|[P1|[p [l P1]]]]; [congruence|exact P1|]. assert (p = q) by (apply (only_one s p q (i_l s I)); [rewrite P1|rewrite Y]; reflexivity). subst. congruence.
Qed.
Lemma prompt_run : forall es s k, inv s -> undisturbed Keq hash served k s es -> prompt s k -> prompt (run s es) k.
Proof. induction es as [|e es IH]; intros s k I U P; [exact P|]. destruct U as [U1 U2]. cbn. apply IH; [apply exec_inv; exact I|exact U2|]. apply prompt_exec; auto. Qed.
(** How often a model is downloaded. *)
Definition direct (c : pc K) : bool := match c with WantDl false _ | CheckCache false _ | Mkdtemp false _ | Fetching false _ | WantMove false _ | Moving false _ | Cleanup false _ | Failing false _ => true | _ => false end.
Definition carries (c : pc K) (k : K) : Prop := c = WantMove true k \/ c = Moving true k.
Definition have (s : sys K) (k : K) : Prop := store s k <> None \/ cache s (hash k) <> None \/ exists p, carries (pcs s p) k.
Record cinv (i : nat) (s : sys K) : Prop := mk_cinv {
  c_d : forall p, direct (pcs s p) = false;
  c_n : forall p k, pcs s p = Mkdtemp true k \/ pcs s p = Fetching true k -> cache s (hash k) = None;
  c_c : forall k, count_occ Keq (downloads s) k <= i \/ (count_occ Keq (downloads s) k <= S i /\ have s k) }.
Lemma cinv_more : forall i s, cinv i s -> forall k, count_occ Keq (downloads s) k <= S i.
Proof. intros i s [_ _ C] k. destruct (C k) as [|[]]; lia. Qed.
(** A step that changes neither the cache nor the store nor the downloads. *)
Lemma cinv_keep : forall i j s s' p c, cinv i s -> i <= j -> cache s' = cache s -> store s' = store s -> downloads s' = downloads s -> pcs s' = pcs (at_pc s p c) -> direct c = false ->
  (forall k, c = Mkdtemp true k \/ c = Fetching true k -> cache s (hash k) = None) -> (i < j \/ forall k, carries (pcs s p) k -> carries c k) -> cinv j s'.
Proof.
  intros i j s s' p c C LE EC ES ED EP DC NC H. pose proof (cinv_more i s C) as M. destruct C as [CD CN CC]. constructor.
  - intros q. rewrite EP. cbn. destruct (q =? p); auto.
  - intros q k. rewrite EP, EC. cbn. destruct (q =? p); auto. apply CN.
  - intros k. rewrite ED. destruct H as [H|H]; [left; specialize (M k); lia|]. destruct (CC k) as [L|[L [HS|[HS|[q HS]]]]]; [left; lia|right..]; split; try lia.
    + left. rewrite ES. exact HS.
    + right. left. rewrite EC. exact HS.
    + right. right. exists q. rewrite EP. cbn. destruct (Nat.eqb_spec q p) as [->|]; auto.
Qed.
Lemma cinv_exec : forall i s e, inv s -> (forall p k, e <> CallCached p k) -> cinv i s -> cinv (i + interruptions [e]) (exec s e).
Proof.
  intros i s e I ND C. pose proof I as [L IC IS IE IF IP]. pose proof C as [CD CN CC].
  assert (OUT : forall p q, in_store (pcs s p) = true -> q <> p -> in_store (pcs s q) = false).
  { intros p q H NE. destruct (in_store (pcs s q)) eqn:X; [|reflexivity]. exfalso. apply NE. exact (only_one s q p L X H). }
  destruct e as [p k|p k|p|p|p]; unfold interruptions; cbn [filter length]; rewrite ?Nat.add_0_r; cbn [PretrainedModels.exec].
  - destruct (resting (pcs s p)) eqn:R; [|exact C]. apply (cinv_keep i i s _ p (WantModels k)); auto; [intros k' [X|X]; discriminate|]. right. intros k' [X|X]; rewrite X in R; discriminate.
  - exfalso. exact (ND p k eq_refl).
  - specialize (IP p) as F. specialize (CD p) as DP. specialize (CN p) as NP. unfold PretrainedModels.step. destruct (pcs s p) eqn:E; cbn [fact] in F; try exact C; try (destruct b; [|discriminate DP]).
    + destruct (models_lock s); [exact C|]. apply (cinv_keep i i s _ p (Check k)); auto; [intros k' [X|X]; discriminate|]. right. rewrite E. intros k' [X|X]; discriminate.
    + destruct (store s k) eqn:ST; [apply (cinv_keep i i s _ p (Leaving k true))|apply (cinv_keep i i s _ p (WantDl true k))]; auto; try (intros k' [X|X]; discriminate); right; rewrite E; intros k' [X|X]; discriminate.
    + destruct (dl_lock s); [exact C|]. apply (cinv_keep i i s _ p (CheckCache true k)); auto; [intros k' [X|X]; discriminate|]. right. rewrite E. intros k' [X|X]; discriminate.
    + destruct (cache s (hash k)) eqn:CA.
      * apply (cinv_keep i i s _ p (Renaming k)); auto; [intros k' [X|X]; discriminate|]. right. rewrite E. intros k' [X|X]; discriminate.
      * apply (cinv_keep i i s _ p (Mkdtemp true k)); auto; [intros k' [X|X]; [injection X as <-; exact CA|discriminate]|]. right. rewrite E. intros k' [X|X]; discriminate.
    + apply (cinv_keep i i s _ p (Fetching true k)); auto; [intros k' [X|X]; [discriminate|injection X as <-; apply NP; auto]|]. right. rewrite E. intros k' [X|X]; discriminate.
    + (* Fetching *) assert (NH : ~ have s k).
      { intros [H|[H|[q H]]]; [congruence|apply H; apply NP; auto|]. destruct (Nat.eq_dec q p) as [->|NE]; [rewrite E in H; destruct H; discriminate|].
        pose proof (OUT p q) as O. rewrite E in O. specialize (O eq_refl NE). destruct H as [H|H]; rewrite H in O; discriminate. }
      constructor.
      * intros q. cbn. destruct (q =? p); auto.
      * intros q k'. cbn. destruct (q =? p); [intros [X|X]; discriminate|apply CN].
      * intros k'. cbn [at_pc with_download downloads count_occ]. destruct (Keq k k') as [<-|NE].
        -- right. destruct (CC k) as [H|[_ H]]; [|contradiction]. split; [lia|]. right. right. exists p. cbn. rewrite Nat.eqb_refl. left. reflexivity.
        -- destruct (CC k') as [H|[H [HS|[HS|[q HS]]]]]; [left; exact H|right; split; [exact H|]..]; [left; exact HS|right; left; exact HS|]. right. right. exists q. cbn. destruct (Nat.eqb_spec q p) as [->|]; [rewrite E in HS; destruct HS; discriminate|exact HS].
    + destruct (dl_lock s); [exact C|]. apply (cinv_keep i i s _ p (Moving true k)); auto; [intros k' [X|X]; discriminate|]. right. rewrite E. intros k' [X|X]; [injection X as <-; right; reflexivity|discriminate].
    + (* Moving *) constructor.
      * intros q. cbn. destruct (q =? p); auto.
      * intros q k'. cbn. destruct (Nat.eqb_spec q p) as [->|NE]; [intros [X|X]; discriminate|]. intros X. exfalso. pose proof (OUT p q) as O. rewrite E in O. specialize (O eq_refl NE). destruct X as [X|X]; rewrite X in O; discriminate.
      * intros k'. cbn [at_pc with_dl with_cache downloads]. destruct (CC k') as [H|[H HS]]; [left; exact H|]. right. split; [exact H|]. unfold have. cbn. destruct (Nat.eqb_spec (hash k') (hash k)) as [HH|HH]; [right; left; discriminate|].
        destruct HS as [HS|[HS|[q HS]]]; auto. right. right. exists q. destruct (Nat.eqb_spec q p) as [->|]; [|exact HS]. rewrite E in HS. destruct HS as [X|X]; [discriminate|injection X as <-; congruence].
    + apply (cinv_keep i i s _ p (Renaming k)); auto; [intros k' [X|X]; discriminate|]. right. rewrite E. intros k' [X|X]; discriminate.
    + apply (cinv_keep i i s _ p (Raised k)); auto; [intros k' [X|X]; discriminate|]. right. rewrite E. intros k' [X|X]; discriminate.
    + (* Renaming *) destruct F as [F1 F2]. destruct (cache s (hash k)) as [z|] eqn:CA; [|congruence]. constructor.
      * intros q. cbn. destruct (q =? p); auto.
      * intros q k'. cbn. destruct (Nat.eqb_spec q p) as [->|NE]; [intros [X|X]; discriminate|]. destruct (hash k' =? hash k); [reflexivity|]. apply CN.
      * intros k'. cbn [at_pc with_store with_cache downloads]. destruct (CC k') as [H|[H HS]]; [left; exact H|]. right. split; [exact H|]. unfold have. cbn. destruct (Keq k' k) as [->|NK]; [left; discriminate|].
        destruct HS as [HS|[HS|[q HS]]]; [left; exact HS| |].
        -- right. left. destruct (Nat.eqb_spec (hash k') (hash k)) as [HH|]; [apply inj in HH; congruence|exact HS].
        -- right. right. exists q. destruct (Nat.eqb_spec q p) as [->|]; [rewrite E in HS; destruct HS; discriminate|exact HS].
    + destruct l as [|[n d] l]; [apply (cinv_keep i i s _ p (Leaving k false))|apply (cinv_keep i i s _ p (Extracting k l))]; auto; try (intros k' [X|X]; discriminate); right; rewrite E; intros k' [X|X]; discriminate.
    + apply (cinv_keep i i s _ p (Returned k cached)); auto; [intros k' [X|X]; discriminate|]. right. rewrite E. intros k' [X|X]; discriminate.
  - assert (C' : cinv (i + 1) s).
    { constructor; auto. intros k. left. pose proof (cinv_more i s C k). lia. }
    specialize (CD p) as DP. unfold fail. destruct (pcs s p) eqn:E; try exact C'; try (destruct b; [|discriminate DP]).
    + apply (cinv_keep i (i + 1) s _ p (Failing true k)); auto; [lia|intros k' [X|X]; discriminate|left; lia].
    + apply (cinv_keep i (i + 1) s _ p (Raised k)); auto; [lia|intros k' [X|X]; discriminate|left; lia].
  - apply (cinv_keep i (i + 1) s _ p Idle); auto; [lia|intros k' [X|X]; discriminate|left; lia].
Qed.
Lemma interruptions_cons : forall (e : event K) es, interruptions (e :: es) = interruptions [e] + interruptions es.
Proof. intros. unfold interruptions. cbn. destruct e; cbn; lia. Qed.
Lemma cinv_run : forall es i s, inv s -> only_models es -> cinv i s -> cinv (i + interruptions es) (run s es).
Proof.
  induction es as [|e es IH]; intros i s I O C; [cbn; rewrite Nat.add_0_r; exact C|]. rewrite interruptions_cons, Nat.add_assoc. cbn [PretrainedModels.run fold_left]. apply IH.
  - apply exec_inv. exact I.
  - intros p k H. exact (O p k (or_intror H)).
  - apply cinv_exec; auto. intros p k ->. exact (O p k (or_introl eq_refl)).
Qed.
Lemma downloads_ok : forall es k, only_models es -> count_occ Keq (downloads (run fresh_disk es)) k <= S (interruptions es).
Proof.
  intros es k O. apply (cinv_more (interruptions es)). apply (cinv_run es 0 fresh_disk fresh_inv O). constructor; cbn; auto.
Qed.

(** Temporary directories. *)
Definition b2n (b : bool) : nat := if b then 1 else 0.
Lemma temps_exec : forall s e p m, temps s p <= m + b2n (has_temp (pcs s p)) -> temps (exec s e) p <= (m + crashes_of p [e]) + b2n (has_temp (pcs (exec s e) p)).
Proof. clear inj.
  intros s e p m H. destruct (Nat.eq_dec p (actor e)) as [->|NE].
  - destruct e as [p k|p k|p|p|p]; cbn [actor] in *; unfold crashes_of; cbn [filter length]; cbn [PretrainedModels.exec].
    + destruct (resting (pcs s p)) eqn:R; [|lia]. cbn. rewrite Nat.eqb_refl. destruct (pcs s p); try discriminate; cbn in *; lia.
    + destruct (resting (pcs s p)) eqn:R; [|lia]. cbn. rewrite Nat.eqb_refl. destruct (pcs s p); try discriminate; cbn in *; lia.
    + unfold PretrainedModels.step. destruct (pcs s p) eqn:E; try (rewrite E; cbn in *; lia); try destruct (models_lock s); try destruct (dl_lock s); try (destruct (store s k)); try (destruct (cache s (hash k))); try (destruct l as [|[? ?] ?]); try destruct b; cbn in *; rewrite ?Nat.eqb_refl, ?E; cbn; lia.
    + unfold fail. destruct (pcs s p) eqn:E; try (rewrite E; cbn in *; lia); cbn in *; rewrite ?Nat.eqb_refl; cbn; lia.
    + cbn. rewrite Nat.eqb_refl. cbn. destruct (has_temp (pcs s p)); cbn in *; lia.
  - assert (T : temps (exec s e) p = temps s p).
    { apply Nat.eqb_neq in NE. destruct e as [q k|q k|q|q|q]; cbn [actor] in NE; cbn [PretrainedModels.exec].
      - destruct (resting _); reflexivity.
      - destruct (resting _); reflexivity.
      - unfold PretrainedModels.step. destruct (pcs s q) eqn:E; try reflexivity; try destruct (models_lock s); try destruct (dl_lock s); try (destruct (store s k)); try (destruct (cache s (hash k))); try (destruct l as [|[? ?] ?]); try destruct b; cbn; rewrite ?NE; reflexivity.
      - unfold fail. destruct (pcs s q) eqn:E; reflexivity.
      - reflexivity. }
    rewrite T, exec_others by exact NE. lia.
Qed.
Lemma crashes_cons : forall p (e : event K) es, crashes_of p (e :: es) = crashes_of p [e] + crashes_of p es.
Proof. clear inj. intros. unfold crashes_of. cbn. destruct e; cbn; try lia. destruct (p0 =? p); cbn; lia. Qed.
Lemma temps_run : forall es s p m, temps s p <= m + b2n (has_temp (pcs s p)) -> temps (run s es) p <= (m + crashes_of p es) + b2n (has_temp (pcs (run s es) p)).
Proof. clear inj.
  induction es as [|e es IH]; intros s p m H; [cbn in *; lia|]. rewrite crashes_cons, Nat.add_assoc. cbn [PretrainedModels.run fold_left]. apply IH. apply temps_exec. exact H.
Qed.
Lemma temps_ok : forall es p, resting (pcs (run fresh_disk es) p) = true -> temps (run fresh_disk es) p <= crashes_of p es.
Proof. clear inj. intros es p R. pose proof (temps_run es fresh_disk p 0 (le_n 0)) as H. destruct (pcs (run fresh_disk es) p); try discriminate; cbn in H; lia. Qed.

(** No deadlock. *)
Definition weight (c : pc K) : nat :=
  match c with
  | Idle | Returned _ _ | GotPath _ | Raised _ => 0
  | Leaving _ _ => 1 | Extracting _ l => 2 + length l | Renaming k => 3 + length (served k)
  | Failing _ _ => 1 | Cleanup _ k => 4 + length (served k) | Moving _ k => 5 + length (served k) | WantMove _ k => 6 + length (served k)
  | Fetching _ k => 7 + length (served k) | Mkdtemp _ k => 8 + length (served k) | CheckCache _ k => 9 + length (served k) | WantDl _ k => 10 + length (served k)
  | Check k => 11 + length (served k) | WantModels k => 12 + length (served k)
  end.
Definition waits (s : sys K) (p : nat) : Prop :=
  match pcs s p with WantModels _ => models_lock s <> None | WantDl _ _ | WantMove _ _ => dl_lock s <> None | _ => False end.
Lemma step_weight : forall s p, inv s -> resting (pcs s p) = false -> ~ waits s p -> weight (pcs (step s p) p) < weight (pcs s p).
Proof.
  intros s p I R W. pose proof (i_c s I) as IC. unfold waits in W. unfold PretrainedModels.step. destruct (pcs s p) eqn:E; try discriminate R.
  - destruct (models_lock s); [destruct W; discriminate|]. cbn. rewrite Nat.eqb_refl. cbn. lia.
  - destruct (store s k); cbn; rewrite Nat.eqb_refl; cbn; lia.
  - destruct (dl_lock s); [destruct W; discriminate|]. cbn. rewrite Nat.eqb_refl. cbn. lia.
  - destruct (cache s (hash k)); cbn; rewrite Nat.eqb_refl; try destruct b; cbn; lia.
  - cbn. rewrite Nat.eqb_refl. cbn. lia.
  - cbn. rewrite Nat.eqb_refl. cbn. lia.
  - destruct (dl_lock s); [destruct W; discriminate|]. cbn. rewrite Nat.eqb_refl. cbn. lia.
  - cbn. rewrite Nat.eqb_refl. cbn. lia.
  - cbn. rewrite Nat.eqb_refl. destruct b; cbn; lia.
  - destruct b; cbn; rewrite Nat.eqb_refl; cbn; lia.
  - destruct (cache s (hash k)) eqn:CA; cbn; rewrite Nat.eqb_refl; cbn; [rewrite (IC k _ CA); lia|lia].
  - destruct l as [|[n d] l]; cbn; rewrite Nat.eqb_refl; cbn; lia.
  - cbn. rewrite Nat.eqb_refl. cbn. lia.
Qed.
Lemma someone_moves : forall s p, inv s -> resting (pcs s p) = false -> exists q, resting (pcs s q) = false /\ ~ waits s q.
Proof.
  intros s p I R. pose proof (i_l s I) as [LM LD].
  assert (D : forall r, dl_lock s = Some r -> exists q, resting (pcs s q) = false /\ ~ waits s q).
  { intros r H. apply LD in H. exists r. unfold waits. destruct (pcs s r); try discriminate; auto. }
  assert (M : forall r, models_lock s = Some r -> exists q, resting (pcs s q) = false /\ ~ waits s q).
  { intros r H. apply LM in H. destruct (dl_lock s) as [r'|] eqn:DL; [exact (D r' eq_refl)|]. exists r. unfold waits. rewrite DL. destruct (pcs s r); try discriminate; auto. }
  destruct (models_lock s) as [r|] eqn:ML; [exact (M r eq_refl)|]. destruct (dl_lock s) as [r'|] eqn:DL; [exact (D r' eq_refl)|].
  exists p. split; [exact R|]. unfold waits. rewrite ML, DL. destruct (pcs s p); auto.
Qed.
Lemma step_others : forall s p q, q <> p -> pcs (step s p) q = pcs s q.
Proof. intros s p q H. exact (exec_others s (Step p) q H). Qed.
Fixpoint total (ps : list nat) (s : sys K) : nat := match ps with [] => 0 | p :: ps => weight (pcs s p) + total ps s end.
Lemma total_step : forall ps s q, NoDup ps -> In q ps -> weight (pcs (step s q) q) < weight (pcs s q) -> total ps (step s q) < total ps s.
Proof.
  induction ps as [|p ps IH]; intros s q ND IN W; [destruct IN|]. inversion ND as [|? ? NI ND']; subst. cbn [total]. destruct IN as [->|IN].
  - assert (T : total ps (step s q) = total ps s); [|lia]. clear IH ND ND' W. induction ps as [|r ps IHp]; [reflexivity|]. cbn [total]. rewrite IHp by (intros X; apply NI; right; exact X).
    rewrite (step_others s q r); [reflexivity|]. cbn. intros ->. apply NI. left. reflexivity.
  - specialize (IH s q ND' IN W). rewrite (step_others s q p); [lia|]. cbn. intros ->. contradiction.
Qed.
Lemma all_rest_from : forall n ps s, total ps s <= n -> NoDup ps -> (forall p, ~ In p ps -> resting (pcs s p) = true) -> inv s ->
  exists qs, forall p, resting (pcs (run s (map Step qs)) p) = true.
Proof.
  induction n as [|n IH]; intros ps s LE ND O I.
  - exists []. intros p. cbn. destruct (resting (pcs s p)) eqn:R; [reflexivity|]. exfalso. destruct (someone_moves s p I R) as (q & RQ & W). pose proof (step_weight s q I RQ W) as SW.
    assert (IN : In q ps) by (destruct (in_dec Nat.eq_dec q ps) as [H|H]; [exact H|rewrite (O q H) in RQ; discriminate]). pose proof (total_step ps s q ND IN SW). lia.
  - destruct (existsb (fun p => negb (resting (pcs s p))) ps) eqn:X.
    + apply existsb_exists in X. destruct X as (p & IP & X). apply negb_true_iff in X. destruct (someone_moves s p I X) as (q & RQ & W). pose proof (step_weight s q I RQ W) as SW.
      assert (IN : In q ps) by (destruct (in_dec Nat.eq_dec q ps) as [H|H]; [exact H|rewrite (O q H) in RQ; discriminate]). pose proof (total_step ps s q ND IN SW) as TS.
      destruct (IH ps (step s q)) as [qs H]; [lia|exact ND| |exact (exec_inv s (Step q) I)|].
      * intros p' NI. rewrite (step_others s q p'); [apply O; exact NI|]. cbn. intros ->. contradiction.
      * exists (q :: qs). exact H.
    + exists []. intros p. cbn. destruct (in_dec Nat.eq_dec p ps) as [H|H]; [|apply O; exact H]. destruct (resting (pcs s p)) eqn:R; [reflexivity|]. exfalso.
      assert (Y : existsb (fun p => negb (resting (pcs s p))) ps = true) by (apply existsb_exists; exists p; rewrite R; auto). congruence.
Qed.
Lemma quiet : forall es s p, (forall e, In e es -> actor e <> p) -> pcs (run s es) p = pcs s p.
Proof. clear inj.
  induction es as [|e es IH]; intros s p H; [reflexivity|]. change (run s (e :: es)) with (run (exec s e) es). rewrite IH by (intros e' IN; apply H; right; exact IN). apply exec_others. intros X. exact (H e (or_introl eq_refl) (eq_sym X)).
Qed.
Lemma all_rest : forall es, exists qs, forall p, resting (pcs (run fresh_disk (es ++ map Step qs)) p) = true.
Proof.
  intros es. destruct (all_rest_from (total (nodup Nat.eq_dec (map actor es)) (run fresh_disk es)) (nodup Nat.eq_dec (map actor es)) (run fresh_disk es) (le_n _) (NoDup_nodup _ _)) as [qs H].
  - intros p NI. rewrite quiet; [reflexivity|]. intros e IN X. apply NI. apply nodup_In. subst. apply in_map. exact IN.
  - apply reach_inv.
  - exists qs. intros p. unfold PretrainedModels.run. rewrite fold_left_app. apply H.
Qed.
(** What an interruption leaves behind. *)
Lemma run_app : forall a b s, run s (a ++ b) = run (run s a) b.
Proof. intros. unfold PretrainedModels.run. apply fold_left_app. Qed.
Definition unpacking (s : sys K) (k : K) : Prop := pcs s 0 = Extracting k (served k) /\ (forall q, q <> 0 -> pcs s q = Idle) /\ models_lock s = Some 0 /\ store s k = Some (served k) /\ (forall n, files s k n = None).
Definition view (s : sys K) (p : nat) (k : K) : pc K * option nat * option nat * option (list (nat * nat)) * option (list (nat * nat)) := (pcs s p, models_lock s, dl_lock s, cache s (hash k), store s k).
(** What a step of [p], working on [k], does to what it sees. *)
Definition seen (p : nat) (k : K) (v : pc K * option nat * option nat * option (list (nat * nat)) * option (list (nat * nat))) : pc K * option nat * option nat * option (list (nat * nat)) * option (list (nat * nat)) :=
  let '(c, m, d, ca, st) := v in
  match c with
  | WantModels _ => match m with None => (Check k, Some p, d, ca, st) | Some _ => v end
  | Check _ => (match st with Some _ => Leaving k true | None => WantDl true k end, m, d, ca, st)
  | WantDl b _ => match d with None => (CheckCache b k, m, Some p, ca, st) | Some _ => v end
  | CheckCache b _ => (match ca with Some _ => after_download b k | None => Mkdtemp b k end, m, None, ca, st)
  | Mkdtemp b _ => (Fetching b k, m, d, ca, st)
  | Fetching b _ => (WantMove b k, m, d, ca, st)
  | WantMove b _ => match d with None => (Moving b k, m, Some p, ca, st) | Some _ => v end
  | Moving b _ => (Cleanup b k, m, None, Some (served k), st)
  | Cleanup b _ => (after_download b k, m, d, ca, st)
  | Renaming _ => match ca with Some z => (Extracting k z, m, d, None, Some z) | None => v end
  | _ => v
  end.
Definition busy_with (c : pc K) (k : K) : Prop :=
  match c with
  | WantModels k' | Check k' | WantDl _ k' | CheckCache _ k' | Mkdtemp _ k' | Fetching _ k' | WantMove _ k' | Moving _ k' | Cleanup _ k' => k' = k
  | _ => False
  end.
Lemma seen_ok : forall s p k, busy_with (pcs s p) k \/ (pcs s p = Renaming k /\ cache s (hash k) <> None) -> view (step s p) p k = seen p k (view s p k).
Proof. clear inj.
  intros s p k H. unfold view, PretrainedModels.step. destruct (pcs s p) eqn:E; destruct H as [H|[H H2]]; cbn in H; try contradiction; try discriminate; subst; cbn [seen].
  - destruct (models_lock s) eqn:ML; rewrite ?E, ?ML; [reflexivity|]. cbn. rewrite Nat.eqb_refl. reflexivity.
  - destruct (store s k) eqn:ST; cbn; rewrite Nat.eqb_refl, ?ST; reflexivity.
  - destruct (dl_lock s) eqn:DL; rewrite ?E, ?DL; [reflexivity|]. cbn. rewrite Nat.eqb_refl. reflexivity.
  - destruct (cache s (hash k)) eqn:CA; cbn; rewrite Nat.eqb_refl, ?CA; reflexivity.
  - cbn. rewrite Nat.eqb_refl. reflexivity.
  - cbn. rewrite Nat.eqb_refl. reflexivity.
  - destruct (dl_lock s) eqn:DL; rewrite ?E, ?DL; [reflexivity|]. cbn. rewrite Nat.eqb_refl. reflexivity.
  - cbn. rewrite !Nat.eqb_refl. reflexivity.
  - cbn. rewrite Nat.eqb_refl. reflexivity.
  - injection H as ->. destruct (cache s (hash k)) eqn:CA; [|congruence]. cbn. rewrite !Nat.eqb_refl. destruct (Keq k k); [reflexivity|congruence].
Qed.
Lemma run_cons : forall e es s, run s (e :: es) = run (exec s e) es.
Proof. reflexivity. Qed.
Lemma seen_next : forall s p k es v, view s p k = v -> (let '(c, _, _, ca, _) := v in busy_with c k \/ (c = Renaming k /\ ca <> None)) ->
  exists s', run s (Step p :: es) = run s' es /\ view s' p k = seen p k v /\ s' = step s p.
Proof. clear inj.
  intros s p k es v V H. exists (step s p). split; [reflexivity|]. split; [|reflexivity]. rewrite <- V. apply seen_ok. subst v. exact H.
Qed.
Ltac advance s V := let s' := fresh "s" in let R := fresh "R" in let V' := fresh "V" in
  match goal with |- context [PretrainedModels.run _ _ _ s (Step ?p :: ?es)] =>
    match type of V with view _ _ ?k = ?v => destruct (seen_next s p k es v V) as (s' & R & V' & _); [cbn; first [left; reflexivity|right; split; [reflexivity|discriminate]]|rewrite R; clear R; cbn [seen after_download] in V'; clear V; rename V' into V; clear s; rename s' into s] end end.
Lemma run_unpacks : forall s k, view s 0 k = (WantModels k, None, None, None, None) -> view (run s (repeat (Step 0) 10)) 0 k = (Extracting k (served k), Some 0, None, None, Some (served k)).
Proof. clear inj. intros s k V. cbn [repeat]. do 10 advance s V. exact V. Qed.
Lemma to_unpacking : forall k, unpacking (run fresh_disk (Call 0 k :: repeat (Step 0) 10)) k.
Proof.
  intros k. pose proof (reach_inv (Call 0 k :: repeat (Step 0) 10)) as I. pose proof (quiet (Call 0 k :: repeat (Step 0) 10) fresh_disk) as Q.
  assert (V : view (run fresh_disk (Call 0 k :: repeat (Step 0) 10)) 0 k = (Extracting k (served k), Some 0, None, None, Some (served k))) by (rewrite run_cons; apply run_unpacks; reflexivity).
  generalize dependent (run fresh_disk (Call 0 k :: repeat (Step 0) 10)). intros s I Q V. unfold view in V. injection V as V1 V2 V3 V4 V5. unfold unpacking.
  split; [exact V1|]. split; [|split; [exact V2|split; [exact V5|]]].
  - intros q NE. rewrite Q; [reflexivity|]. intros e [<-|IN]; cbn; [congruence|]. apply repeat_spec in IN. subst. cbn. congruence.
  - intros n. pose proof (i_p s I 0) as F. rewrite V1 in F. destruct F as (_ & dn & E & F). assert (LN : length dn = 0) by (apply (f_equal (@length _)) in E; rewrite app_length in E; lia). destruct dn; [|discriminate]. rewrite F. reflexivity.
Qed.
Definition left_behind (s : sys K) (k : K) : Prop := (forall q l, pcs s q <> Extracting k l) /\ pcs s 1 = Idle /\ models_lock s = None /\ store s k = Some (served k) /\ (forall n, files s k n = None).
Lemma stop_unpacking : forall s k stop, stop = Crash 0 \/ stop = Fail 0 -> unpacking s k -> left_behind (exec s stop) k.
Proof.
  intros s k stop H (A2 & A3 & A4 & A5 & A6). destruct H as [->| ->]; cbn [PretrainedModels.exec].
  - unfold crash, left_behind. cbn. rewrite A4. cbn. rewrite (A3 1) by lia. repeat split; auto. intros [|q] l; cbn; [discriminate|rewrite A3 by lia; discriminate].
  - unfold fail, left_behind. rewrite A2. cbn. rewrite (A3 1) by lia. repeat split; auto. intros [|q] l; cbn; [discriminate|rewrite A3 by lia; discriminate].
Qed.
Lemma call_again : forall s k, left_behind s k -> let s' := run s (Call 1 k :: repeat (Step 1) 3) in pcs s' 1 = Returned k true /\ settled s' k /\ forall n, files s' k n = None.
Proof.
  intros s k (B2 & B3 & B4 & B5 & B6). cbn [repeat].
  assert (E1 : exec s (Call 1 k) = at_pc s 1 (WantModels k)) by (cbn; rewrite B3; reflexivity).
  assert (E2 : exec (at_pc s 1 (WantModels k)) (Step 1) = at_pc (with_models (at_pc s 1 (WantModels k)) (Some 1)) 1 (Check k)) by (cbn; rewrite B4; reflexivity).
  set (s2 := at_pc (with_models (at_pc s 1 (WantModels k)) (Some 1)) 1 (Check k)) in *.
  assert (E3 : exec s2 (Step 1) = at_pc s2 1 (Leaving k true)) by (cbn; rewrite B5; reflexivity).
  assert (E4 : exec (at_pc s2 1 (Leaving k true)) (Step 1) = at_pc (with_models (at_pc s2 1 (Leaving k true)) None) 1 (Returned k true)) by reflexivity.
  assert (EQ : run s [Call 1 k; Step 1; Step 1; Step 1] = at_pc (with_models (at_pc s2 1 (Leaving k true)) None) 1 (Returned k true)) by (unfold PretrainedModels.run; cbn [fold_left]; rewrite E1, E2, E3, E4; reflexivity).
  cbv zeta. rewrite EQ. clear EQ E1 E2 E3 E4. split; [reflexivity|]. split; [|exact B6]. split; [cbn; congruence|].
  intros q l. cbn. destruct (q =? 1); [discriminate|apply B2].
Qed.
Definition broken_run (k : K) (stop : event K) : list (event K) := (Call 0 k :: repeat (Step 0) 10) ++ [stop] ++ (Call 1 k :: repeat (Step 1) 3).
Lemma broken : forall k stop, stop = Crash 0 \/ stop = Fail 0 -> let s := run fresh_disk (broken_run k stop) in pcs s 1 = Returned k true /\ settled s k /\ forall n, files s k n = None.
Proof.
  intros k stop H. cbv zeta. unfold broken_run. rewrite run_app, run_app. apply call_again. exact (stop_unpacking _ k stop H (to_unpacking k)).
Qed.
Lemma broken_forever : forall k stop, stop = Crash 0 \/ stop = Fail 0 -> served k <> [] -> exists es, interruptions es = 1 /\ In stop es /\ pcs (run fresh_disk es) 1 = Returned k true /\
  forall later, ~ complete (run fresh_disk (es ++ later)) k.
Proof.
  intros k stop H NE. destruct (broken k stop H) as (R & ST & F). exists (broken_run k stop).
  split; [destruct H as [->| ->]; reflexivity|]. split; [unfold broken_run; apply in_or_app; right; left; reflexivity|]. split; [exact R|]. intros later C. rewrite run_app in C.
  destruct (settled_run later _ k (reach_inv _) ST) as [_ FF]. destruct (served k) as [|[n d] z] eqn:SE; [congruence|]. specialize (C n). rewrite FF, F, SE in C. cbn in C. rewrite Nat.eqb_refl in C. destruct (unpacked z n); discriminate.
Qed.
(** A direct caller of cached_download finds that its file has been moved away. *)
Lemma path_gone : forall k, exists es, interruptions es = 0 /\ pcs (run fresh_disk es) 0 = GotPath k /\ cache (run fresh_disk es) (hash k) = None.
Proof. clear inj.
  intros k. exists (CallCached 0 k :: repeat (Step 0) 6 ++ Call 1 k :: repeat (Step 1) 5 ++ [Step 0]). split; [reflexivity|].
  rewrite run_cons, run_app.
  assert (A : forall s, view s 0 k = (WantDl false k, None, None, None, None) -> view (run s (repeat (Step 0) 6)) 0 k = (Cleanup false k, None, None, Some (served k), None)) by (intros s V; cbn [repeat]; do 6 advance s V; exact V).
  specialize (A (exec fresh_disk (CallCached 0 k)) eq_refl). pose proof (quiet (CallCached 0 k :: repeat (Step 0) 6) fresh_disk 1) as Q. rewrite run_cons in Q.
  assert (Q1 : pcs (run (exec fresh_disk (CallCached 0 k)) (repeat (Step 0) 6)) 1 = Idle).
  { rewrite Q; [reflexivity|]. intros e [<-|IN]; cbn; [discriminate|]. apply repeat_spec in IN. subst. discriminate. }
  clear Q. generalize dependent (run (exec fresh_disk (CallCached 0 k)) (repeat (Step 0) 6)). intros s A Q1. rewrite run_cons, run_app. unfold view in A. injection A as A1 A2 A3 A4 A5.
  assert (E : exec s (Call 1 k) = at_pc s 1 (WantModels k)) by (cbn; rewrite Q1; reflexivity). rewrite E. clear E.
  assert (B : forall s, view s 1 k = (WantModels k, None, None, Some (served k), None) -> view (run s (repeat (Step 1) 5)) 1 k = (Extracting k (served k), Some 1, None, None, Some (served k))) by (clear; intros s V; cbn [repeat]; do 5 advance s V; exact V).
  specialize (B (at_pc s 1 (WantModels k))). unfold view at 1 in B. cbn [pcs at_pc models_lock dl_lock cache store] in B. rewrite A2, A3, A4, A5 in B. specialize (B eq_refl).
  assert (Q0 : pcs (run (at_pc s 1 (WantModels k)) (repeat (Step 1) 5)) 0 = Cleanup false k).
  { rewrite quiet; [exact A1|]. intros e IN. apply repeat_spec in IN. subst. discriminate. }
  generalize dependent (run (at_pc s 1 (WantModels k)) (repeat (Step 1) 5)). intros s2 B Q0. unfold view in B. injection B as B1 B2 B3 B4 B5.
  rewrite run_cons. cbn [PretrainedModels.exec]. unfold PretrainedModels.step. rewrite Q0. split; [reflexivity|exact B4].
Qed.
Lemma safe : forall es, let s := run fresh_disk es in
  (forall k z, cache s (hash k) = Some z -> z = served k) /\ (forall k z, store s k = Some z -> z = served k) /\ (forall k n d, files s k n = Some d -> In (n, d) (served k)) /\
  (forall p q, in_store (pcs s p) = true -> in_store (pcs s q) = true -> p = q).
Proof. intros es s. pose proof (reach_inv es) as I. destruct I as [L IC IS IE IF IP]. repeat split; auto. intros p q. apply only_one. exact L. Qed.
Lemma first_complete : forall es later k p, pcs (run fresh_disk es) p = Returned k false -> complete (run fresh_disk (es ++ later)) k.
Proof.
  intros es later k p H. pose proof (i_p _ (reach_inv es) p) as F. rewrite H in F.
  assert (EQ : run fresh_disk (es ++ later) = run (run fresh_disk es) later) by (unfold PretrainedModels.run; apply fold_left_app). rewrite EQ. apply (finished_run later _ k (reach_inv es) F).
Qed.
Lemma undisturbed_complete : forall es k p c, undisturbed Keq hash served k fresh_disk es -> pcs (run fresh_disk es) p = Returned k c -> complete (run fresh_disk es) k.
Proof. intros es k p c U H. assert (P : prompt (run fresh_disk es) k) by (apply prompt_run; [apply fresh_inv|exact U|split; [left; reflexivity|discriminate]]). apply (proj2 P p c H). Qed.
End P.

From Coq Require Import String Ascii.
Open Scope string_scope.
Lemma drop_ok : forall p s r, drop_prefix p s = Some r <-> s = p ++ r.
Proof.
  induction p as [|a p IH]; intros s r; cbn; [split; congruence|]. destruct s as [|b s]; cbn; [split; discriminate|]. destruct (Ascii.eqb_spec a b) as [->|NE].
  - rewrite IH. split; [intros ->; reflexivity|intros H; congruence].
  - split; [discriminate|]. intros H. congruence.
Qed.
Lemma remove_none : forall n p s, ~ occurs p s -> remove_all n p s = s.
Proof.
  induction n as [|n IH]; intros p s H; cbn; [reflexivity|]. destruct (drop_prefix p s) as [r|] eqn:D.
  - exfalso. apply H. apply drop_ok in D. exists "", r. exact D.
  - destruct s as [|a s]; [reflexivity|]. rewrite IH; [reflexivity|]. intros (x & y & E). apply H. exists (String a x), y. rewrite E. reflexivity.
Qed.
Lemma append_nil : forall s, s ++ "" = s.
Proof. induction s; cbn; congruence. Qed.
Lemma length_append : forall a b, String.length (a ++ b) = (String.length a + String.length b)%nat.
Proof. induction a; intros; cbn; auto. Qed.
Lemma no_overlap : forall g r, g <> "" -> g ++ "NoFrameskip-v4" = "NoFrameskip-v4" ++ r -> exists b, g = "NoFrameskip-v4" ++ b.
Proof.
  intros g r NE H. cbn [append] in H.
  do 14 (destruct g as [|? g]; [try congruence; cbn [append] in H; discriminate H|cbn [append] in H; injection H as -> H]).
  exists g. reflexivity.
Qed.
Lemma remove_suffix : forall n g, (String.length g < n)%nat -> ~ occurs "NoFrameskip-v4" g -> remove_all n "NoFrameskip-v4" (g ++ "NoFrameskip-v4") = g.
Proof.
  induction n as [|n IH]; intros g LT NO; [lia|]. destruct g as [|a g].
  - cbn. destruct n; reflexivity.
  - cbn [remove_all]. destruct (drop_prefix "NoFrameskip-v4" (String a g ++ "NoFrameskip-v4")) as [r|] eqn:D.
    + exfalso. apply drop_ok in D. apply no_overlap in D; [|discriminate]. destruct D as [b E]. apply NO. exists "", b. exact E.
    + cbn [append]. rewrite IH; [reflexivity|cbn in LT; lia|]. intros (x & y & E). apply NO. exists (String a x), y. rewrite E. reflexivity.
Qed.
Lemma key_ok : forall alg env ty, (forall l, table_of alg pretrained = Some l -> In ty l -> download_model_key alg env ty = Ok (alg, remove_all (String.length env) "NoFrameskip-v4" env, ty)) /\
  ((forall l, table_of alg pretrained = Some l -> ~ In ty l) -> download_model_key alg env ty = Raise AssertionError).
Proof.
  intros. unfold download_model_key. destruct (table_of alg pretrained) as [l|] eqn:T; split.
  - intros l' E IN. injection E as <-. assert (X : existsb (String.eqb ty) l = true) by (apply existsb_exists; exists ty; rewrite String.eqb_refl; auto). rewrite X. reflexivity.
  - intros H. destruct (existsb (String.eqb ty) l) eqn:X; [|reflexivity]. apply existsb_exists in X. destruct X as (x & IN & EQ). apply String.eqb_eq in EQ. subst. exfalso. exact (H l eq_refl IN).
  - intros l' E. discriminate.
  - reflexivity.
Qed.
Lemma same_model : forall alg game ty, ~ occurs "NoFrameskip-v4" game -> download_model_key alg (game ++ "NoFrameskip-v4") ty = download_model_key alg game ty.
Proof.
  intros. unfold download_model_key. destruct (table_of alg pretrained); [|reflexivity]. destruct (existsb _ _); [|reflexivity]. rewrite remove_suffix, remove_none; auto. rewrite length_append. cbn. lia.
Qed.
Lemma default_unsupported : exists alg l, table_of alg pretrained = Some l /\ l <> [] /\ forall env, download_model_default alg env = Raise AssertionError.
Proof. exists "A3C", ["final"]. split; [reflexivity|]. split; [discriminate|]. reflexivity. Qed.
