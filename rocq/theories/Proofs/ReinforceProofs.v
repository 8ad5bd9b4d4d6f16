(** REINFORCE updates on complete batches of full-return episodes. *)
From Coq Require Import QArith Lqa.
From Verif Require Import Base.PyBase Spec.WrapperSpec Model.Reinforce Spec.ReinforceSpec Proofs.QSumFacts.
Set Implicit Arguments.
Local Open Scope nat_scope.

(** Batches of a growing list. *)
Definition rest_of {A} (B : nat) (l : list A) : list A := skipn (length l / B * B) l.
Definition batches {A} (B : nat) (l : list A) : list (list A) := map (batch_no B l) (seq 0 (length l / B)).
Lemma rest_len : forall A B (l : list A), 1 <= B -> length (rest_of B l) = length l mod B.
Proof.
  intros A B l H. unfold rest_of. rewrite skipn_length. assert (E := Nat.div_mod_eq (length l) B). nia.
Qed.
Lemma batch_no_app : forall A B (l : list A) x i, (i + 1) * B <= length l -> batch_no B (l ++ [x]) i = batch_no B l i.
Proof.
  intros A B l x i H. unfold batch_no. rewrite skipn_app, firstn_app. rewrite skipn_length.
  replace (B - (length l - i * B)) with 0 by nia. cbn [firstn]. apply app_nil_r.
Qed.
Lemma batches_old : forall A B (l : list A) x n, n * B <= length l -> map (batch_no B (l ++ [x])) (seq 0 n) = map (batch_no B l) (seq 0 n).
Proof.
  intros A B l x n H. apply map_ext_in. intros i Hi. apply in_seq in Hi. apply batch_no_app. nia.
Qed.
Lemma rest_snoc_part : forall A B (l : list A) x, 1 <= B -> length (rest_of B l) + 1 < B ->
  batches B (l ++ [x]) = batches B l /\ rest_of B (l ++ [x]) = rest_of B l ++ [x].
Proof.
  intros A B l x HB H. rewrite rest_len in H by exact HB.
  assert (E := Nat.div_mod_eq (length l) B).
  assert (Eq : length (l ++ [x]) / B = length l / B).
  { rewrite app_length. cbn [length]. symmetry. apply (Nat.div_unique _ _ _ (length l mod B + 1)); [exact H|]. lia. }
  unfold batches, rest_of. rewrite Eq. split.
  - apply batches_old. nia.
  - rewrite skipn_app. f_equal. replace (length l / B * B - length l) with 0 by nia. reflexivity.
Qed.
Lemma rest_snoc_full : forall A B (l : list A) x, 1 <= B -> length (rest_of B l) + 1 = B ->
  batches B (l ++ [x]) = batches B l ++ [rest_of B l ++ [x]] /\ rest_of B (l ++ [x]) = [].
Proof.
  intros A B l x HB H. rewrite rest_len in H by exact HB.
  assert (E := Nat.div_mod_eq (length l) B).
  assert (Eq : length (l ++ [x]) / B = length l / B + 1).
  { rewrite app_length. cbn [length]. symmetry. apply (Nat.div_unique _ _ _ 0); [lia|]. nia. }
  unfold batches, rest_of. rewrite Eq. split.
  - rewrite seq_app, map_app. cbn [seq map]. rewrite batches_old by nia. f_equal. f_equal.
    unfold batch_no. rewrite skipn_app. cbn [Nat.add]. replace (length l / B * B - length l) with 0 by nia. cbn [skipn].
    apply firstn_all2. rewrite app_length, skipn_length. cbn [length]. nia.
  - apply skipn_all2. rewrite app_length. cbn [length]. nia.
Qed.
Lemma batches_nil : forall A B, 1 <= B -> batches B (@nil A) = [] /\ rest_of B (@nil A) = [].
Proof. intros A B H. unfold batches, rest_of. cbn [length]. rewrite Nat.div_0_l by lia. split; reflexivity. Qed.

Lemma map_last_snoc : forall A (f : A -> A) l x, map_last f (l ++ [x]) = Ok (l ++ [f x]).
Proof.
  intros A f l x. induction l as [|y l IH]; [reflexivity|]. cbn [app map_last]. destruct (l ++ [x]) as [|z t] eqn:E.
  - destruct l; discriminate E.
  - rewrite IH. reflexivity.
Qed.

Section RP.
Variable V : Type.
Notation act3 := (Q * V * V)%type.
Definition rw3 (z : act3) : Q := fst (fst z).
Definition lp3 (z : act3) : V := snd (fst z).
Definition en3 (z : act3) : V := snd z.

(** The trace's updates and the gradient left. *)
Fixpoint grad_after (g : list (rterm V)) (tr : list (revent V)) : list (rterm V) :=
  match tr with
  | [] => g
  | RClear :: rest => grad_after [] rest
  | RBackward l :: rest => grad_after (g ++ l) rest
  | RUpdate :: rest => grad_after g rest
  end.
Lemma updates_app : forall a g b, updates g (a ++ b) = updates g a ++ updates (grad_after g a) b.
Proof. induction a as [|[|l|] a IH]; intros g b; cbn [app updates grad_after]; rewrite ?IH; reflexivity. Qed.
Lemma grad_app : forall a g b, grad_after g (a ++ b) = grad_after (grad_after g a) b.
Proof. induction a as [|[|l|] a IH]; intros g b; cbn [app grad_after]; rewrite ?IH; reflexivity. Qed.

(** The terms the code computes for an episode. *)
Definition raw_terms (beta : Q) (ep : episode V) : list (rterm V) :=
  map (fun z => match z with (R, lp, ent) => RTerm (- R)%Q lp (- beta)%Q ent end)
    (zip3 (returns_of (map rw3 (fst ep) ++ [snd ep])) (map lp3 (fst ep)) (map en3 (fst ep))).
Definition scaled (B : nat) (l : list (rterm V)) : list (rterm V) :=
  map (fun t => RTerm (rt_clp t / inject_Z (Z.of_nat B))%Q (rt_lp t) (rt_cent t / inject_Z (Z.of_nat B))%Q (rt_ent t)) l.
Definition mterms (beta : Q) (B : nat) (ep : episode V) : list (rterm V) := scaled B (raw_terms beta ep).

Lemma seq_losses_ok : forall beta (ep : episode V), seq_losses beta (map rw3 (fst ep) ++ [snd ep]) (map lp3 (fst ep)) (map en3 (fst ep)) = Ok (raw_terms beta ep).
Proof.
  intros beta ep. unfold seq_losses. rewrite app_length, !map_length. cbn [length].
  replace (Z.of_nat (length (fst ep) + 1) - 1 =? Z.of_nat (length (fst ep)))%Z with true by lia.
  rewrite Nat.eqb_refl. reflexivity.
Qed.
Lemma zip3_maps : forall (eps : list (episode V)),
  zip3 (map (fun ep : episode V => map rw3 (fst ep) ++ [snd ep]) eps) (map (fun ep : episode V => map lp3 (fst ep)) eps) (map (fun ep : episode V => map en3 (fst ep)) eps)
  = map (fun ep : episode V => (map rw3 (fst ep) ++ [snd ep], map lp3 (fst ep), map en3 (fst ep))) eps.
Proof. induction eps as [|ep eps IH]; [reflexivity|]. cbn [map zip3]. rewrite IH. reflexivity. Qed.
Lemma all_losses_ok : forall beta (eps : list (episode V)),
  all_losses beta (map (fun ep : episode V => (map rw3 (fst ep) ++ [snd ep], map lp3 (fst ep), map en3 (fst ep))) eps) = Ok (flat_map (raw_terms beta) eps).
Proof.
  intros beta eps. induction eps as [|ep eps IH]; [reflexivity|]. cbn [map all_losses]. rewrite seq_losses_ok. cbn [bind]. rewrite IH. reflexivity.
Qed.
Lemma cumsum_snoc : forall u acc a, cumsum_from acc (u ++ [a]) = cumsum_from acc u ++ [(fold_left Qplus u acc + a)%Q].
Proof. induction u as [|x u IH]; intros acc a; cbn [app cumsum_from fold_left]; [reflexivity|]. rewrite IH. reflexivity. Qed.
Lemma fold_plus : forall u acc, (fold_left Qplus u acc == acc + qsum u)%Q.
Proof.
  induction u as [|x u IH]; intros acc; cbn [fold_left].
  - change (qsum []) with 0%Q. ring.
  - rewrite IH, qsum_cons. ring.
Qed.
Lemma qsum_rev : forall u, (qsum (rev u) == qsum u)%Q.
Proof.
  induction u as [|x u IH]; [reflexivity|]. cbn [rev]. rewrite qsum_app, !qsum_cons, IH. change (qsum []) with 0%Q. ring.
Qed.
Lemma returns_cons : forall r a u, returns_of (r :: a :: u) = (fold_left Qplus (rev u) 0 + a)%Q :: returns_of (a :: u).
Proof.
  intros r a u. unfold returns_of, cumsum. cbn [tl rev]. rewrite cumsum_snoc, rev_app_distr. reflexivity.
Qed.
Lemma raw_terms_cons : forall beta z later fin, raw_terms beta (z :: later, fin) =
  RTerm (- match map rw3 later ++ [fin] with [] => 0 | a :: u => fold_left Qplus (rev u) 0 + a end)%Q (lp3 z) (- beta)%Q (en3 z)
  :: raw_terms beta (later, fin).
Proof.
  intros beta z later fin. unfold raw_terms. cbn [fst snd map app].
  destruct (map rw3 later ++ [fin]) as [|a u] eqn:E; [destruct later; discriminate E|].
  rewrite returns_cons. reflexivity.
Qed.
Lemma raw_terms_len : forall beta ep, length (raw_terms beta ep) = length (fst ep).
Proof.
  intros beta [acts fin]. induction acts as [|z acts IH]; [reflexivity|]. rewrite raw_terms_cons. cbn [length fst].
  rewrite IH. reflexivity.
Qed.
Lemma mterms_spec : forall beta B ep, Forall2 (@same_term V) (mterms beta B ep) (contributions beta B (fst ep) (snd ep)).
Proof.
  intros beta B [acts fin]. cbn [fst snd]. unfold mterms. induction acts as [|((r, l), e) later IH]; [constructor|].
  rewrite raw_terms_cons. cbn [contributions scaled map]. constructor; [|exact IH].
  unfold same_term. cbn [rt_clp rt_lp rt_cent rt_ent lp3 en3 fst snd]. split; [|split; [reflexivity|split; reflexivity]].
  unfold rewards_after. change (fun z : Q * V * V => fst (fst z)) with rw3.
  assert (E0 : (qsum (map rw3 later) + fin == qsum (map rw3 later ++ [fin]))%Q).
  { rewrite qsum_app, qsum_cons. change (qsum []) with 0%Q. ring. }
  rewrite E0. destruct (map rw3 later ++ [fin]) as [|a u].
  - reflexivity.
  - rewrite fold_plus, qsum_rev, qsum_cons. unfold Qdiv. ring.
Qed.

(** The invariant: [D] are the completed episodes so far, [cur] the actions of
    the running one. *)
Definition Inv (c : rconf) (s : rstate V) (D : list (episode V)) (cur : list act3) : Prop :=
  let B := rc_batchsize c in
  updates [] (rs_trace s) = map (flat_map (mterms (rc_beta c) B)) (batches B D)
  /\ if rc_separately c then
       rs_rewards s = [map rw3 cur] /\ rs_lps s = [map lp3 cur] /\ rs_ents s = [map en3 cur]
       /\ rs_nback s = length (rest_of B D)
       /\ (rs_nback s <> 0 -> grad_after [] (rs_trace s) = flat_map (mterms (rc_beta c) B) (rest_of B D))
     else
       rs_rewards s = map (fun ep : episode V => map rw3 (fst ep) ++ [snd ep]) (rest_of B D) ++ [map rw3 cur]
       /\ rs_lps s = map (fun ep : episode V => map lp3 (fst ep)) (rest_of B D) ++ [map lp3 cur]
       /\ rs_ents s = map (fun ep : episode V => map en3 (fst ep)) (rest_of B D) ++ [map en3 cur]
       /\ rs_nback s = 0.

Lemma rest_lt : forall A B (l : list A), 1 <= B -> length (rest_of B l) < B.
Proof. intros A B l H. rewrite rest_len by exact H. apply Nat.mod_upper_bound. lia. Qed.

Lemma init_inv : forall c, 1 <= rc_batchsize c -> Inv c r_init [] [].
Proof.
  intros c H. unfold Inv. destruct (batches_nil (episode V) H) as (E1 & E2). rewrite E1, E2. cbn. split; [reflexivity|].
  destruct (rc_separately c); repeat split.
Qed.
Lemma act_inv : forall c s D cur r l e, Inv c s D cur -> exists s', r_act s r l e = Ok s' /\ Inv c s' D (cur ++ [(r, l, e)]).
Proof.
  intros c s D cur r l e (HU & H). unfold r_act. destruct (rc_separately c) eqn:M.
  - destruct H as (E1 & E2 & E3 & E4 & E5). rewrite E1, E2, E3. cbn [map_last bind]. eexists. split; [reflexivity|].
    unfold Inv. rewrite M. cbn [rs_trace rs_rewards rs_lps rs_ents rs_nback]. rewrite !map_app. repeat split; assumption.
  - destruct H as (E1 & E2 & E3 & E4). rewrite E1, E2, E3. rewrite !map_last_snoc. cbn [bind]. eexists. split; [reflexivity|].
    unfold Inv. rewrite M. cbn [rs_trace rs_rewards rs_lps rs_ents rs_nback]. rewrite !map_app. repeat split; assumption.
Qed.
Lemma discard_inv : forall c s D cur r, Inv c s D cur -> exists s', r_stop c s r false = Ok s' /\ Inv c s' D [].
Proof.
  intros c s D cur r (HU & H). unfold r_stop. cbn [negb]. destruct (rc_separately c) eqn:M.
  - destruct H as (E1 & E2 & E3 & E4 & E5). rewrite E1, E2, E3. cbn [map_last bind]. eexists. split; [reflexivity|].
    unfold Inv. rewrite M. cbn [rs_trace rs_rewards rs_lps rs_ents rs_nback]. repeat split; assumption.
  - destruct H as (E1 & E2 & E3 & E4). rewrite E1, E2, E3. rewrite !map_last_snoc. cbn [bind]. eexists. split; [reflexivity|].
    unfold Inv. rewrite M. cbn [rs_trace rs_rewards rs_lps rs_ents rs_nback]. repeat split; assumption.
Qed.

Lemma total_loss_cases : forall beta B (eps : list (episode V)), 1 <= B ->
  total_loss B (flat_map (raw_terms beta) eps) = Ok (flat_map (mterms beta B) eps)
  \/ (exists x, total_loss B (flat_map (raw_terms beta) eps) = Raise x) /\ Forall (fun ep => fst ep = []) eps.
Proof.
  intros beta B eps HB. unfold total_loss. destruct (flat_map (raw_terms beta) eps) as [|t ts] eqn:E.
  - right. split; [eexists; reflexivity|]. clear HB. induction eps as [|ep eps IH]; [constructor|]. cbn [flat_map] in E.
    apply app_eq_nil in E. destruct E as (E1 & E2). constructor; [|apply IH; exact E2].
    apply (f_equal (@length _)) in E1. rewrite raw_terms_len in E1. apply length_zero_iff_nil. exact E1.
  - left. destruct (Nat.eqb B 0) eqn:E0; [apply Nat.eqb_eq in E0; lia|]. f_equal. rewrite <- E. clear.
    change (scaled B (flat_map (raw_terms beta) eps) = flat_map (mterms beta B) eps).
    induction eps as [|ep eps IH]; [reflexivity|]. cbn [flat_map]. unfold scaled in *. rewrite map_app, IH. reflexivity.
Qed.

Definition mk_ep (cur : list act3) (r : Q) : episode V := (cur, r).
Lemma done_inv : forall c s D cur r, 1 <= rc_batchsize c -> Inv c s D cur ->
  (exists s', r_stop c s r true = Ok s' /\ Inv c s' (D ++ [mk_ep cur r]) []) \/ ((exists x, r_stop c s r true = Raise x) /\ cur = []).
Proof.
  intros c s D cur r HB (HU & H). unfold r_stop. cbn [negb].
  set (beta := rc_beta c) in *. set (B := rc_batchsize c) in *.
  assert (Hlt := rest_lt D HB).
  destruct (rc_separately c) eqn:M.
  - destruct H as (E1 & E2 & E3 & E4 & E5). rewrite E1. cbn [map_last bind]. unfold r_accumulate.
    cbn [rs_trace rs_rewards rs_lps rs_ents rs_nback]. fold beta B. rewrite E2, E3. cbn [zip3].
    assert (EL := all_losses_ok beta [mk_ep cur r]). cbn [map mk_ep fst snd] in EL. rewrite EL. cbn [bind].
    destruct (total_loss_cases beta [mk_ep cur r] HB) as [ET|((x & ET) & HF)]; rewrite ET; cbn [bind].
    2:{ right. split; [eexists; reflexivity|]. inversion HF as [|? ? Hx _]; subst. exact Hx. }
    left. cbn [rs_nback]. rewrite E4.
    set (tr := if Nat.eqb (length (rest_of B D)) 0 then rs_trace s ++ [RClear] else rs_trace s).
    assert (Htr : updates [] tr = updates [] (rs_trace s) /\ grad_after [] tr = flat_map (mterms beta B) (rest_of B D)).
    { subst tr. destruct (Nat.eqb (length (rest_of B D)) 0) eqn:E0.
      - apply Nat.eqb_eq, length_zero_iff_nil in E0. rewrite E0. rewrite updates_app, grad_app. cbn [updates grad_after flat_map].
        rewrite app_nil_r. split; reflexivity.
      - apply Nat.eqb_neq in E0. split; [reflexivity|]. apply E5. rewrite E4. exact E0. }
    clearbody tr. destruct Htr as (Hu & Hg).
    destruct (Nat.eqb (S (length (rest_of B D))) B) eqn:EB.
    + apply Nat.eqb_eq in EB. unfold r_update_accumulated. cbn [rs_nback rs_trace rs_rewards rs_lps rs_ents]. fold B.
      destruct (Nat.eqb (S (length (rest_of B D))) B) eqn:EB2; [|apply Nat.eqb_neq in EB2; lia].
      eexists. split; [reflexivity|]. destruct (@rest_snoc_full (episode V) B D (mk_ep cur r) HB) as (F1 & F2); [lia|].
      unfold Inv. cbv zeta. fold B beta. rewrite M, F1, F2. cbn [rs_nback rs_trace rs_rewards rs_lps rs_ents map length].
      split; [|repeat split; intros N; contradiction].
      rewrite <- app_assoc, updates_app, Hu, HU, Hg, map_app. f_equal. cbn [app updates map]. rewrite flat_map_app. reflexivity.
    + apply Nat.eqb_neq in EB. eexists. split; [reflexivity|]. destruct (@rest_snoc_part (episode V) B D (mk_ep cur r) HB) as (F1 & F2); [lia|].
      unfold Inv. cbv zeta. fold B beta. rewrite M, F1, F2. cbn [rs_nback rs_trace rs_rewards rs_lps rs_ents map length].
      split; [rewrite updates_app, Hu, HU; cbn [updates]; apply app_nil_r|].
      repeat split.
      * rewrite app_length. cbn [length]. lia.
      * intros _. rewrite grad_app, Hg. cbn [grad_after]. rewrite flat_map_app. reflexivity.
  - destruct H as (E1 & E2 & E3 & E4). rewrite E1, map_last_snoc. cbn [bind rs_rewards].
    rewrite app_length, map_length. cbn [length].
    destruct (Nat.eqb (length (rest_of B D) + 1) B) eqn:EB.
    + apply Nat.eqb_eq in EB. unfold r_batch_update, r_accumulate. cbn [rs_nback rs_trace rs_rewards rs_lps rs_ents]. fold beta B.
      rewrite E2, E3, E4, !app_length, !map_length. cbn [length]. rewrite (proj2 (Nat.eqb_eq _ _) EB). rewrite Nat.eqb_refl.
      assert (EZ : zip3 (map (fun ep : episode V => map rw3 (fst ep) ++ [snd ep]) (rest_of B D) ++ [map rw3 cur ++ [r]])
                        (map (fun ep : episode V => map lp3 (fst ep)) (rest_of B D) ++ [map lp3 cur])
                        (map (fun ep : episode V => map en3 (fst ep)) (rest_of B D) ++ [map en3 cur])
                   = map (fun ep : episode V => (map rw3 (fst ep) ++ [snd ep], map lp3 (fst ep), map en3 (fst ep))) (rest_of B D ++ [mk_ep cur r])).
      { rewrite <- zip3_maps, !map_app. reflexivity. }
      rewrite EZ, all_losses_ok. cbn [bind].
      destruct (total_loss_cases beta (rest_of B D ++ [mk_ep cur r]) HB) as [ET|((x & ET) & HF)]; rewrite ET; cbn [bind].
      2:{ right. split; [eexists; reflexivity|]. rewrite Forall_forall in HF. apply (HF (mk_ep cur r)). apply in_or_app. right. left. reflexivity. }
      left. eexists. split; [reflexivity|]. destruct (@rest_snoc_full (episode V) B D (mk_ep cur r) HB) as (F1 & F2); [lia|].
      unfold Inv. cbv zeta. fold B beta. rewrite M, F1, F2. cbn [rs_nback rs_trace rs_rewards rs_lps rs_ents map app].
      split; [|repeat split].
      rewrite <- !app_assoc, updates_app, HU, map_app. f_equal.
    + apply Nat.eqb_neq in EB. left. eexists. split; [reflexivity|]. destruct (@rest_snoc_part (episode V) B D (mk_ep cur r) HB) as (F1 & F2); [lia|].
      unfold Inv. cbv zeta. fold B beta. rewrite M, F1, F2. cbn [rs_nback rs_trace rs_rewards rs_lps rs_ents map].
      split; [exact HU|]. rewrite E2, E3, !map_app. repeat split; assumption.
Qed.

Lemma run_inv : forall c os s D cur, 1 <= rc_batchsize c -> Inv c s D cur ->
  (forall s', r_run c s os = Ok s' -> exists cur', Inv c s' (D ++ completed cur os) cur')
  /\ (Forall (fun ep => fst ep <> []) (completed cur os) -> exists s', r_run c s os = Ok s').
Proof.
  intros c os. induction os as [|o os IH]; intros s D cur HB H; cbn [r_run completed].
  - split.
    + intros s' E. injection E as <-. exists cur. rewrite app_nil_r. exact H.
    + intros _. exists s. reflexivity.
  - destruct o as [r l e|r [|]]; cbn [r_step].
    + destruct (act_inv r l e H) as (s1 & -> & H1). cbn [bind]. apply IH; assumption.
    + destruct (done_inv r HB H) as [(s1 & -> & H1)|((x & ->) & Hc)]; cbn [bind].
      * change (cur, r) with (mk_ep cur r). destruct (IH _ _ _ HB H1) as (A1 & A2). rewrite <- app_assoc in A1. split; [exact A1|].
        intros HF. inversion HF as [|? ? _ HF']; subst. apply A2. exact HF'.
      * split; [intros s' E; discriminate E|]. intros HF. inversion HF as [|? ? Hn _]; subst. contradiction.
    + destruct (discard_inv r H) as (s1 & -> & H1). cbn [bind]. apply IH; assumption.
Qed.

Lemma flat_map_F2 : forall A (f g : A -> list (rterm V)) l, (forall x, Forall2 (@same_term V) (f x) (g x)) ->
  Forall2 (@same_term V) (flat_map f l) (flat_map g l).
Proof. intros A f g l H. induction l as [|x l IH]; [constructor|]. cbn [flat_map]. apply Forall2_app; [apply H|exact IH]. Qed.

Lemma updates_lemma : forall c os s, 1 <= rc_batchsize c -> r_run c r_init os = Ok s ->
  Forall2 (Forall2 (@same_term V)) (updates [] (rs_trace s)) (expected_updates (rc_beta c) (rc_batchsize c) os).
Proof.
  intros c os s HB E. destruct (@run_inv c os r_init [] [] HB (init_inv c HB)) as (A & _).
  destruct (A s E) as (cur & HU & _). rewrite HU. cbn [app]. unfold expected_updates, batches. rewrite map_map.
  induction (seq 0 (length (completed [] os) / rc_batchsize c)) as [|i is IH]; [constructor|]. cbn [map]. constructor; [|exact IH].
  apply flat_map_F2. intros ep. apply mterms_spec.
Qed.
Lemma no_raise_lemma : forall c (os : list (rop V)), 1 <= rc_batchsize c -> Forall (fun ep => fst ep <> []) (completed [] os) ->
  exists s, r_run c r_init os = Ok s.
Proof. intros c os HB H. destruct (@run_inv c os r_init [] [] HB (init_inv c HB)) as (_ & A). apply A. exact H. Qed.
End RP.
