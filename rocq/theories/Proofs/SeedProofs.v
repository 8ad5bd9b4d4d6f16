From Coq Require Import Lia.
From Verif Require Import Base.PyBase Model.RandomSeed Spec.SeedSpec.

Section S.
Context {G V Rq : Type}.
Variable seeded : Z -> G.
Variable draw : G -> Rq -> V * G.
Variable n_gpus : Z.
Notation set := (set_random_seed seeded n_gpus).

Lemma state_set : forall (w : world G) s g s', state_of (set_state w s g) s' = g \/ state_of (set_state w s g) s' = state_of w s'.
Proof. intros w [| |d] g [| |d']; cbn; auto. destruct (d' =? d)%Z; auto. Qed.
Lemma state_set_same : forall (w : world G) s g, state_of (set_state w s g) s = g.
Proof. intros w [| |d] g; cbn; auto. rewrite Z.eqb_refl. reflexivity. Qed.
Lemma state_set_other : forall (w : world G) s g s', s <> s' -> state_of (set_state w s g) s' = state_of w s'.
Proof. intros w [| |d] g [| |d'] H; cbn; auto; try congruence. destruct (Z.eqb_spec d' d); [subst; congruence|reflexivity]. Qed.
Lemma source_dec : forall s s' : source, {s = s'} + {s <> s'}.
Proof. decide equality. apply Z.eq_dec. Qed.

Lemma gpus_ok : forall gpus w seed, valid_gpus n_gpus gpus -> exists w', seed_gpus seeded n_gpus w seed gpus = (w', None) /\ w_python w' = w_python w /\ w_numpy w' = w_numpy w /\ w_env w' = w_env w /\
  forall d, w_cupy w' d = seeded seed /\ (0 <= d)%Z /\ In d gpus \/ w_cupy w' d = w_cupy w d /\ ~ ((0 <= d)%Z /\ In d gpus).
Proof.
  induction gpus as [|g t IH]; intros w seed V0; [exists w; cbn; split; [reflexivity|]; do 3 (split; [reflexivity|]); intros d; right; split; [reflexivity|tauto]|]. cbn [seed_gpus].
  assert (V1 : valid_gpus n_gpus t) by (intros x Hx; apply V0; right; assumption). pose proof (V0 g (or_introl eq_refl)) as V2.
  destruct (Z.leb_spec 0 g).
  - destruct (Z.ltb_spec g n_gpus); [|lia]. destruct (IH (set_state w (SCupy g) (seeded seed)) seed V1) as (w' & E & P1 & P2 & P3 & P4). exists w'. split; [exact E|]. split; [exact P1|]. split; [exact P2|]. split; [exact P3|].
    intros d. specialize (P4 d). cbn in P4. destruct (Z.eqb_spec d g) as [EQ|N].
    + left. split; [destruct P4 as [[P4 _]|[P4 _]]; exact P4|]. split; [lia|left; auto].
    + destruct P4 as [(P4 & H1 & H2)|[P4 N']]; [left; split; [assumption|split; [assumption|right; assumption]]|right]. split; [assumption|]. intros [H1 [H2|H2]]; [congruence|apply N'; split; assumption].
  - destruct (IH w seed V1) as (w' & E & P1 & P2 & P3 & P4). exists w'. split; [exact E|]. split; [exact P1|]. split; [exact P2|]. split; [exact P3|]. intros d.
    destruct (P4 d) as [(Q1 & Q2 & Q3)|[Q1 Q2]]; [left; split; [assumption|split; [assumption|right; assumption]]|right]. split; [assumption|]. intros [H1 [H2|H2]]; [subst; lia|apply Q2; split; assumption].
Qed.
Lemma seed_ok : forall w seed gpus, valid_seed seed -> valid_gpus n_gpus gpus -> exists w', set w seed gpus = (w', None) /\ w_env w' = Some seed /\
  (forall s, covered gpus s -> state_of w' s = seeded seed) /\ (forall s, ~ covered gpus s -> state_of w' s = state_of w s).
Proof.
  intros w seed gpus [S1 S2] VG. unfold set_random_seed. destruct (Z.leb_spec 0 seed); [|lia]. destruct (Z.ltb_spec seed (2 ^ 32)); [|lia]. cbn [andb].
  destruct (gpus_ok gpus (set_state (set_state w SPython (seeded seed)) SNumpy (seeded seed)) seed VG) as (w' & E & P1 & P2 & P3 & P4). rewrite E. eexists. split; [reflexivity|]. split; [reflexivity|]. split.
  - intros [| |d] C; cbn in *; [exact P1|exact P2|]. destruct (P4 d) as [[Q _]|[_ Q]]; [exact Q|contradiction].
  - intros [| |d] C; cbn in *; [contradiction C; exact I|contradiction C; exact I|]. destruct (P4 d) as [[_ Q]|[Q _]]; [contradiction|exact Q].
Qed.
Lemma seed_bad : forall w seed gpus, ~ valid_seed seed -> exists w', set w seed gpus = (w', Some ValueError) /\ state_of w' SPython = seeded seed /\ w_env w' = w_env w /\ forall s, s <> SPython -> state_of w' s = state_of w s.
Proof.
  intros w seed gpus B. unfold set_random_seed. destruct ((0 <=? seed) && (seed <? 2 ^ 32))%Z eqn:E.
  - apply andb_prop in E. destruct E as [E1 E2]. apply Z.leb_le in E1. apply Z.ltb_lt in E2. contradiction B. split; assumption.
  - eexists. split; [reflexivity|]. split; [reflexivity|]. split; [reflexivity|]. intros [| |d] N; congruence || reflexivity.
Qed.
Definition agree (ok : source -> Prop) (w w' : world G) : Prop := w_env w = w_env w' /\ forall s, ok s -> state_of w s = state_of w' s.
Lemma exec_agree : forall A (p : prog V Rq A) ok w w', draws_from ok p -> agree ok w w' -> fst (exec draw p w) = fst (exec draw p w') /\ agree ok (snd (exec draw p w)) (snd (exec draw p w')).
Proof.
  intros A p ok w w' D. revert w w'. induction D as [a|s r k Hs _ IH|k _ IH]; intros w w' AG; cbn [exec]; [split; [reflexivity|exact AG]| |].
  - rewrite (proj2 AG s Hs). destruct (draw (state_of w' s) r) as [v g]. apply IH. split; [destruct s; apply AG|]. intros s' Hs'.
    destruct (source_dec s s') as [<-|N]; [rewrite !state_set_same; reflexivity|]. rewrite !state_set_other by assumption. apply AG. assumption.
  - rewrite (proj1 AG). apply IH. exact AG.
Qed.
Lemma exec_env : forall A (p : prog V Rq A) (w : world G), w_env (snd (exec draw p w)) = w_env w.
Proof. induction p as [a|s r k IH|k IH]; intros w; cbn [exec]; [reflexivity| |apply IH]. destruct (draw (state_of w s) r) as [v g]. rewrite IH. destruct s; reflexivity. Qed.
Lemma reproducible : forall A (p : prog V Rq A) w w' w1 w1' seed gpus, set w seed gpus = (w1, None) -> set w' seed gpus = (w1', None) -> valid_gpus n_gpus gpus -> draws_from (covered gpus) p ->
  fst (exec draw p w1) = fst (exec draw p w1') /\ forall s, covered gpus s -> state_of (snd (exec draw p w1)) s = state_of (snd (exec draw p w1')) s.
Proof.
  intros A p w w' w1 w1' seed gpus E E' VG D. assert (VS : valid_seed seed).
  { destruct (Z_lt_dec seed 0) as [N|N].
    - destruct (seed_bad w seed gpus) as (x & X & _); [unfold valid_seed; lia|congruence].
    - destruct (Z_lt_dec seed (2 ^ 32)) as [M|M]; [unfold valid_seed; lia|]. destruct (seed_bad w seed gpus) as (x & X & _); [unfold valid_seed; lia|congruence]. }
  destruct (seed_ok w seed gpus VS VG) as (x & X & N1 & C1 & _). destruct (seed_ok w' seed gpus VS VG) as (x' & X' & N1' & C1' & _). rewrite E in X. rewrite E' in X'. injection X as <-. injection X' as <-.
  assert (AG : agree (covered gpus) w1 w1') by (split; [congruence|intros s Hs; rewrite C1, C1' by assumption; reflexivity]).
  destruct (exec_agree A p _ w1 w1' D AG) as [H1 H2]. split; [exact H1|]. apply H2.
Qed.
Lemma gpus_keep : forall gpus w seed s, ~ covered gpus s -> state_of (fst (seed_gpus seeded n_gpus w seed gpus)) s = state_of w s.
Proof.
  induction gpus as [|g t IH]; intros w seed s C; [reflexivity|]. cbn [seed_gpus]. assert (C' : ~ covered t s) by (intros H; apply C; destruct s; cbn in *; tauto).
  destruct (Z.leb_spec 0 g); [|apply IH; assumption]. destruct (g <? n_gpus)%Z; [|reflexivity]. rewrite IH by assumption. apply state_set_other. intros <-. apply C. cbn. split; [assumption|left; reflexivity].
Qed.
Lemma seed_keeps : forall w seed gpus s, ~ covered gpus s -> state_of (fst (set w seed gpus)) s = state_of w s.
Proof.
  intros w seed gpus s C. destruct s as [| |d]; try (contradiction C; exact I). unfold set_random_seed. destruct (_ && _)%bool; [|reflexivity].
  pose proof (gpus_keep gpus (set_state (set_state w SPython (seeded seed)) SNumpy (seeded seed)) seed _ C) as K. destruct (seed_gpus _ _ _ _ _) as [w' [e|]]; exact K.
Qed.
Lemma worker : forall to_seed r (parent : world G) i, valid_seed i -> let w := train_async_world seeded draw n_gpus to_seed r parent i in
  state_of w SPython = seeded i /\ state_of w SNumpy = seeded i /\ w_env w = Some i /\ forall d, state_of w (SCupy d) = state_of parent (SCupy d).
Proof.
  intros to_seed r parent i Hi. cbv zeta. unfold train_async_world, run_async_world. destruct (draw (w_numpy parent) r) as [v g].
  set (w0 := fst (set (set_state parent SNumpy g) (to_seed v) [])). destruct (seed_ok w0 i [] Hi ltac:(intros ? [])) as (w' & E & N & C & K). rewrite E. cbn [fst].
  split; [apply C; exact I|]. split; [apply C; exact I|]. split; [exact N|]. intros d. rewrite K by (cbn; tauto). unfold w0. rewrite seed_keeps by (cbn; tauto). reflexivity.
Qed.
Lemma workers_ignore : forall A (p : prog V Rq A) to_seed r parent parent' i, valid_seed i -> draws_from (covered []) p ->
  fst (exec draw p (train_async_world seeded draw n_gpus to_seed r parent i)) = fst (exec draw p (train_async_world seeded draw n_gpus to_seed r parent' i)).
Proof.
  intros A p to_seed r parent parent' i Hi D. destruct (worker to_seed r parent i Hi) as (A1 & A2 & A3 & _). destruct (worker to_seed r parent' i Hi) as (B1 & B2 & B3 & _).
  apply (exec_agree A p (covered [])); [exact D|]. split; [congruence|]. intros [| |d] C; [congruence|congruence|]. cbn in C. tauto.
Qed.
End S.
Lemma uncovered : exists (p : prog Z unit Z) (w w' : world Z), draws_from (fun s => s = SCupy 1) p /\ snd (set_random_seed count_seeded 2 w 5 [0; -1]%Z) = None /\
  fst (exec count_draw p (fst (set_random_seed count_seeded 2 w 5 [0; -1]%Z))) <> fst (exec count_draw p (fst (set_random_seed count_seeded 2 w' 5 [0; -1]%Z))).
Proof.
  exists (Draw (SCupy 1) tt (fun v => Done v)), (mk_world 0 0 (fun _ => 0) None)%Z, (mk_world 0 0 (fun _ => 1) None)%Z. split; [constructor; [reflexivity|intros; constructor]|]. split; [reflexivity|]. cbn. discriminate.
Qed.
