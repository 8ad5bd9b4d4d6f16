From Verif Require Import Base.PyBase Model.GymEnv Model.VectorEnv Spec.VectorSpec Proofs.WrappersProofs
     Proofs.TrainAsyncProofs.

Lemma nth_ex : forall {T : Type} (l : list T) i, i < length l -> exists x, nth_error l i = Some x.
Proof. intros T l i H. destruct (nth_error l i) eqn:E; [eauto|]. apply nth_error_None in E. lia. Qed.

Lemma list_ext : forall {T : Type} (l m : list T), (forall j, nth_error l j = nth_error m j) -> l = m.
Proof.
  induction l as [|x l IH]; intros [|y m] H; [reflexivity|specialize (H 0); discriminate|specialize (H 0); discriminate|].
  pose proof (H 0) as H0. cbn in H0. inversion H0; subst. f_equal. apply IH. intro j. exact (H (S j)).
Qed.

Lemma nth_combine : forall (T U : Type) (l : list T) (m : list U) i x y,
  nth_error l i = Some x -> nth_error m i = Some y -> nth_error (combine l m) i = Some (x, y).
Proof.
  induction l as [|a l IH]; intros m i x y H1 H2; [destruct i; discriminate|].
  destruct m as [|b m]; [destruct i; discriminate|]. destruct i; cbn in *; [congruence|]. apply IH; assumption.
Qed.

Section Proofs.
Context {A O X SR : Type}.
Variable E : env A O X.
Variable eseed : est E -> option Z -> res (est E * SR).
Notation serve := (VectorEnv.serve E eseed).
Notation reply := (@reply O X SR).
Notation mstate := (@mstate A O X SR E).
Notation worker := (@worker A O X SR E).
Notation idle e := (mk_worker E (SR := SR) [] [] (Some e)).

Definition one (q : option (@cmd A)) (e : est E) (r : option reply) (e' : est E) : Prop :=
  match q with
  | Some q => exists r0, r = Some r0 /\ serve e q = Ok (e', r0)
  | None => r = None /\ e' = e
  end.

Definition perenv (c : call A) (es : list (est E)) (rs : list (option reply)) (es' : list (est E)) : Prop :=
  length rs = length es /\ length es' = length es /\
  forall j e, nth_error es j = Some e ->
    exists r e', nth_error rs j = Some r /\ nth_error es' j = Some e' /\ one (request (length es) c j) e r e'.

Lemma ser_steps_spec : forall es acts es' ss, length acts = length es ->
  ser_steps E es acts = Ok (es', ss) ->
  length ss = length es /\ length es' = length es /\
  forall j e, nth_error es j = Some e -> exists s a e', nth_error ss j = Some s /\ nth_error acts j = Some a /\
    nth_error es' j = Some e' /\ estep E e a = Ok (e', s).
Proof.
  induction es as [|e es IH]; intros [|a acts] es' ss Hl H; try discriminate; cbn [ser_steps] in H.
  - inversion H; subst. split; [reflexivity|]. split; [reflexivity|]. intros [|j] e He; discriminate.
  - apply bind_ok in H. destruct H as ((e1 & s) & Hs & H). apply bind_ok in H. destruct H as ((es1 & ss1) & Hr & H).
    inversion H; subst. destruct (IH acts _ _ ltac:(cbn in Hl; lia) Hr) as (H1 & H2 & H3).
    split; [cbn; lia|]. split; [cbn; lia|]. intros [|j] e0 He; cbn [nth_error] in *.
    + inversion He; subst. exists s, a, e1. auto.
    + apply H3, He.
Qed.

Lemma ser_resets_spec : forall mask es last es' obs, length mask = length es -> length last = length es ->
  ser_resets E mask es last = Ok (es', obs) ->
  length obs = length es /\ length es' = length es /\
  forall j e, nth_error es j = Some e -> exists m ob e', nth_error mask j = Some m /\ nth_error obs j = Some ob /\
    nth_error es' j = Some e' /\
    if m then e' = e /\ nth_error last j = Some ob else exists o, ob = Some o /\ ereset E e = Ok (e', o).
Proof.
  induction mask as [|m mask IH]; intros [|e es] [|o last] es' obs Hl Hl2 H; try discriminate; cbn [ser_resets] in H.
  - inversion H; subst. split; [reflexivity|]. split; [reflexivity|]. intros [|j] e He; discriminate.
  - apply bind_ok in H. destruct H as ((e1 & o1) & Hs & H). apply bind_ok in H. destruct H as ((es1 & ss1) & Hr & H).
    inversion H; subst. destruct (IH es last _ _ ltac:(cbn in Hl; lia) ltac:(cbn in Hl2; lia) Hr) as (H1 & H2 & H3).
    split; [cbn; lia|]. split; [cbn; lia|]. intros [|j] e0 He; cbn [nth_error] in *.
    + inversion He; subst. exists m, o1, e1. do 3 (split; [reflexivity|]). destruct m.
      * inversion Hs; subst. auto.
      * apply bind_ok in Hs. destruct Hs as ((e2 & o2) & Hs & H4). inversion H4; subst. eauto.
    + apply H3, He.
Qed.

Lemma ser_seeds_spec : forall es l es', length l = length es -> ser_seeds E eseed es l = Ok es' ->
  length es' = length es /\ exists rs, length rs = length es /\
  forall j e, nth_error es j = Some e -> exists z e' r, nth_error l j = Some z /\ nth_error es' j = Some e' /\
     nth_error rs j = Some r /\ eseed e z = Ok (e', r).
Proof.
  induction es as [|e es IH]; intros [|z l] es' Hl H; try discriminate; cbn [ser_seeds] in H.
  - inversion H; subst. split; [reflexivity|]. exists []. split; [reflexivity|]. intros [|j] e He; discriminate.
  - apply bind_ok in H. destruct H as ((e1 & r) & Hs & H). apply bind_ok in H. destruct H as (es1 & Hr & H).
    inversion H; subst. destruct (IH l _ ltac:(cbn in Hl; lia) Hr) as (H1 & rs & H2 & H3).
    split; [cbn; lia|]. exists (r :: rs). split; [cbn; lia|]. intros [|j] e0 He; cbn [nth_error] in *.
    + inversion He; subst. exists z, e1, r. auto.
    + apply H3, He.
Qed.

Lemma collect_steps_map : forall ss, collect_steps (SR := SR) (map (fun s : sout O X => Some (RStep s)) ss) = Some ss.
Proof. induction ss as [|s ss IH]; [reflexivity|]. cbn. rewrite IH. reflexivity. Qed.
Lemma collect_seeds_map : forall rs, collect_seeds (map (fun r : SR => Some (RSeed (O := O) (X := X) r)) rs) = Some rs.
Proof. induction rs as [|s ss IH]; [reflexivity|]. cbn. rewrite IH. reflexivity. Qed.

Lemma collect_resets_spec : forall mask (last obs : list (option O)) rs,
  length last = length mask -> length obs = length mask -> length rs = length mask ->
  (forall j, j < length mask ->
     (nth_error mask j = Some true /\ nth_error rs j = Some None /\ nth_error obs j = nth_error last j) \/
     (nth_error mask j = Some false /\ exists o, nth_error rs j = Some (Some (RReset o)) /\ nth_error obs j = Some (Some o))) ->
  collect_resets (X := X) (SR := SR) rs last = Some obs.
Proof.
  induction mask as [|m mask IH]; intros [|l last] [|ob obs] [|r rs] H1 H2 H3 H; try discriminate; [reflexivity|].
  assert (Hc : collect_resets rs last = Some obs).
  { apply IH; try (cbn in *; lia). intros j Hj. apply (H (S j)). cbn; lia. }
  destruct (H 0 ltac:(cbn; lia)) as [(Ha & Hb & Hd)|(Ha & o & Hb & Hd)]; cbn in Ha, Hb, Hd; inversion Hb; subst; inversion Hd; subst;
    cbn [collect_resets]; rewrite Hc; reflexivity.
Qed.

Lemma map_nth_inv : forall (T U : Type) (f : T -> U) l j u, nth_error (map f l) j = Some u ->
  exists t, nth_error l j = Some t /\ u = f t.
Proof.
  intros T U f l j u H. rewrite nth_error_map in H. destruct (nth_error l j); [|discriminate]. inversion H; subst; eauto.
Qed.

Definition mask_reply (p : bool * option O) : option reply :=
  match p with (true, _) => None | (false, Some o) => Some (RReset o) | (false, None) => None end.

Lemma ser_call_spec : forall es last c es' last' a,
  call_fits (length es) c -> length last = length es ->
  ser_call E eseed (es, last) c = Ok ((es', last'), a) ->
  exists rs am, perenv c es rs es' /\ finish_call c rs last = Ok (last', am) /\ same_answer a am /\
    length last' = length es.
Proof.
  intros es last c es' last' a Hfit Hl H. destruct c as [mask|acts|sd]; cbn [ser_call] in H.
  - apply bind_ok in H. destruct H as ((es1 & obs) & Hr & H). inversion H; subst. clear H.
    set (m := match mask with Some m => m | None => repeat false (length es) end) in Hr.
    assert (Hm : length m = length es) by (subst m; destruct mask; [exact Hfit|apply repeat_length]).
    destruct (ser_resets_spec _ _ _ _ _ Hm Hl Hr) as (H1 & H2 & H3).
    set (rs := map mask_reply
                   (combine m last')).
    assert (Hrs : length rs = length es) by (unfold rs; rewrite map_length, combine_length; lia).
    exists rs, (AReset last'). split; [|split; [|split; [reflexivity|exact H1]]].
    + split; [exact Hrs|]. split; [exact H2|]. intros j e He. destruct (H3 j e He) as (b & ob & e' & Ha & Hb & Hc & Hd).
      assert (Hj : nth_error rs j = Some (mask_reply (b, ob))).
      { unfold rs. apply map_nth_error, nth_combine; assumption. }
      rewrite Hj. do 2 eexists. split; [reflexivity|]. split; [exact Hc|].
      assert (Hq : request (length es) (KReset mask) j = if b then None else Some (CReset (A := A))).
      { subst m. cbn [request]. destruct mask as [l|].
        - rewrite Ha. destruct b; reflexivity.
        - apply nth_error_In in Ha. apply repeat_spec in Ha. subst b. reflexivity. }
      rewrite Hq. destruct b.
      * destruct Hd as [-> _]. split; reflexivity.
      * destruct Hd as (o & -> & Ho). cbn [one]. eexists. split; [reflexivity|]. cbn [VectorEnv.serve]. rewrite Ho. reflexivity.
    + cbn [finish_call]. rewrite (collect_resets_spec m last last' rs); [reflexivity|lia|lia|lia|].
      intros j Hj. destruct (nth_ex es j ltac:(lia)) as [e He].
      destruct (H3 j e He) as (b & ob & e' & Ha & Hb & Hc & Hd).
      assert (Hjr : nth_error rs j = Some (mask_reply (b, ob))).
      { unfold rs. apply map_nth_error, nth_combine; assumption. }
      destruct b.
      * left. destruct Hd as [_ Hd]. split; [exact Ha|]. split; [exact Hjr|]. congruence.
      * right. destruct Hd as (o & -> & Ho). split; [exact Ha|]. exists o. split; assumption.
  - apply bind_ok in H. destruct H as ((es1 & ss) & Hr & H). cbn [call_fits] in Hfit.
    destruct (ser_steps_spec _ _ _ _ Hfit Hr) as (H1 & H2 & H3).
    destruct ss as [|s0 ss0] eqn:Ess; [discriminate|]. rewrite <- Ess in *. inversion H; subst es1 last' a. clear H.
    exists (map (fun s => Some (RStep s)) ss), (AStep ss).
    split; [|split; [|split; [reflexivity|rewrite map_length; exact H1]]].
    + split; [rewrite map_length; exact H1|]. split; [exact H2|]. intros j e He.
      destruct (H3 j e He) as (s & a & e' & Ha & Hb & Hc & Hd).
      exists (Some (RStep s)), e'. split; [rewrite nth_error_map, Ha; reflexivity|]. split; [exact Hc|].
      cbn [request]. rewrite Hb. cbn [option_map one]. exists (RStep s). split; [reflexivity|].
      cbn [VectorEnv.serve]. rewrite Hd. reflexivity.
    + cbn [finish_call]. rewrite collect_steps_map. rewrite Ess. reflexivity.
  - destruct sd as [|z|l]; try discriminate. cbn [call_fits] in Hfit. apply bind_ok in H. destruct H as (es1 & Hr & H).
    inversion H; subst. clear H. destruct (ser_seeds_spec _ _ _ Hfit Hr) as (H1 & rs & H2 & H3).
    exists (map (fun r => Some (RSeed r)) rs), (ASeed rs).
    split; [|split; [|split; [eexists; reflexivity|exact Hl]]].
    + split; [rewrite map_length; exact H2|]. split; [exact H1|]. intros j e He.
      destruct (H3 j e He) as (z & e' & r & Ha & Hb & Hc & Hd).
      exists (Some (RSeed r)), e'. split; [rewrite nth_error_map, Hc; reflexivity|]. split; [exact Hb|].
      cbn [request]. rewrite Ha. cbn [option_map one]. exists (RSeed r). split; [reflexivity|].
      cbn [VectorEnv.serve]. rewrite Hd. reflexivity.
    + cbn [finish_call]. rewrite collect_seeds_map. reflexivity.
Qed.

Lemma expects_request : forall n (c : call A) j, call_fits n c -> j < n ->
  expects c j = match request n c j with Some _ => true | None => false end.
Proof.
  intros n c j Hf Hj. destruct c as [[m|]|acts|[|z|l]]; cbn [call_fits expects request] in *; try reflexivity; try destruct Hf.
  - destruct (nth_ex m j ltac:(lia)) as [b ->]. destruct b; reflexivity.
  - destruct (nth_ex acts j ltac:(lia)) as [b ->]. reflexivity.
  - destruct (nth_ex l j ltac:(lia)) as [b ->]. reflexivity.
Qed.

Lemma bound_fits : forall n (c : call A) (last : list (option O)), call_fits n c -> length last = n -> recv_bound n last c = n.
Proof. intros n [[m|]|acts|[|z|l]] last Hf Hl; cbn [call_fits recv_bound] in *; lia. Qed.

(** The worker after its request was sent: not yet served, or served. *)
Definition sent (q : option (@cmd A)) (e : est E) (r : option reply) (e' : est E) (w : worker) : Prop :=
  match q with
  | None => w = idle e
  | Some q => w = mk_worker E [q] [] (Some e) \/ exists r0, r = Some r0 /\ w = mk_worker E [] [r0] (Some e')
  end.

Definition phase_ok (ws : list worker) (n : nat) (ph : @phase A O X SR) (todo : list (call A))
           (s : sstate E) (s_fin : sstate E) (outs : list (answer O X SR)) : Prop :=
  let (es, last) := s in
  match ph with
  | Failed _ => False
  | Ready => ser_calls E eseed s todo = Ok (s_fin, outs) /\
      forall j e, nth_error es j = Some e -> nth_error ws j = Some (idle e)
  | Sending c i => exists s' a outs', ser_call E eseed s c = Ok (s', a) /\ call_fits n c /\
      ser_calls E eseed s' todo = Ok (s_fin, outs') /\ outs = a :: outs' /\ i <= n /\
      exists rs am, perenv c es rs (fst s') /\ finish_call c rs last = Ok (snd s', am) /\ same_answer a am /\
        length (snd s') = n /\
      forall j e r e', nth_error es j = Some e -> nth_error rs j = Some r -> nth_error (fst s') j = Some e' ->
        exists w, nth_error ws j = Some w /\
          if j <? i then sent (request n c j) e r e' w else w = idle e
  | Receiving c i acc => exists s' a outs', ser_call E eseed s c = Ok (s', a) /\ call_fits n c /\
      ser_calls E eseed s' todo = Ok (s_fin, outs') /\ outs = a :: outs' /\ i <= n /\
      exists rs am, perenv c es rs (fst s') /\ finish_call c rs last = Ok (snd s', am) /\ same_answer a am /\
        length (snd s') = n /\ acc = firstn i rs /\
      forall j e r e', nth_error es j = Some e -> nth_error rs j = Some r -> nth_error (fst s') j = Some e' ->
        exists w, nth_error ws j = Some w /\
          if j <? i then w = idle e' else sent (request n c j) e r e' w
  end.

Definition Inv (n : nat) (s_fin : sstate E) (all : list (answer O X SR)) (s : mstate) : Prop :=
  length (m_workers s) = n /\ Forall (call_fits n) (m_todo s) /\
  exists ss outs pre, length (fst ss) = n /\ length (snd ss) = n /\ m_last s = snd ss /\
    all = pre ++ outs /\ Forall2 same_answer pre (m_done s) /\
    phase_ok (m_workers s) n (m_phase s) (m_todo s) ss s_fin outs.

Lemma firstn_snoc : forall (T : Type) (l : list T) i x, nth_error l i = Some x -> firstn (S i) l = firstn i l ++ [x].
Proof.
  induction l as [|y l IH]; intros [|i] x H; cbn in *; try discriminate; [congruence|]. rewrite (IH i x H). reflexivity.
Qed.

Lemma inv_step : forall n s_fin all s p s', Inv n s_fin all s -> mstep eseed s p = Some s' -> Inv n s_fin all s'.
Proof.
  intros n s_fin all [ws last ph todo dn] p s' (Hw & Hfit & [es last0] & outs & pre & Hes & Hlast & Hlo & Hall & Hdn & Hph) Hs.
  cbn [m_workers m_last m_phase m_todo m_done fst snd] in *. subst last0.
  destruct p as [|i].
  - (* parent *)
    cbn [mstep] in Hs. unfold parent_step in Hs. cbn [m_workers m_last m_phase m_todo m_done] in Hs.
    destruct ph as [|c i|c i acc|ex]; [| | |discriminate].
    + destruct todo as [|c cs]; [discriminate|]. destruct Hph as [Hc Hidle].
      inversion Hfit as [|? ? Hf1 Hf2]; subst.
      assert (Hadm : admissible (length ws) c = true).
      { destruct c as [m|acts|[|z|l]]; try reflexivity. cbn in *. apply Nat.eqb_eq. exact Hf1. }
      rewrite Hadm in Hs. inversion Hs; subst s'. clear Hs.
      cbn [ser_calls] in Hc. apply bind_ok in Hc. destruct Hc as ((s1 & a) & Hc1 & Hc).
      apply bind_ok in Hc. destruct Hc as ((s2 & l2) & Hc2 & Hc). inversion Hc; subst. clear Hc.
      split; [reflexivity|]. split; [exact Hf2|]. exists (es, last), (a :: l2), pre.
      cbn [fst snd m_workers m_last m_phase m_todo m_done]. do 5 (split; [solve [auto]|]).
      cbn [phase_ok]. destruct s1 as [es1 last1].
      destruct (ser_call_spec es last c es1 last1 a) as (rs & am & Hp & Hfin & Hsame & Hl'); auto; try congruence.
      do 3 eexists. split; [exact Hc1|]. split; [exact Hf1|]. split; [exact Hc2|]. split; [reflexivity|]. split; [lia|].
      exists rs, am. cbn [fst snd]. split; [exact Hp|]. split; [exact Hfin|]. split; [exact Hsame|]. split; [lia|].
      intros j e r e' He _ _. exists (idle e). split; [apply Hidle, He|]. reflexivity.
    + destruct Hph as (s1 & a & outs' & Hc1 & Hf1 & Hc2 & Hout & Hi & rs & am & Hp & Hfin & Hsame & Hl' & Hj).
      destruct (nth_error ws i) as [w|] eqn:Ew.
      * inversion Hs; subst s'. clear Hs.
        assert (Hi' : i < n) by (rewrite <- Hw; apply nth_error_Some; congruence).
        split; [cbn; rewrite upd_len; exact Hw|]. split; [exact Hfit|]. exists (es, last), outs, pre.
        cbn [fst snd m_workers m_last m_phase m_todo m_done]. do 5 (split; [solve [auto]|]).
        cbn [phase_ok]. do 3 eexists. split; [exact Hc1|]. split; [exact Hf1|]. split; [exact Hc2|]. split; [exact Hout|].
        split; [lia|]. exists rs, am. do 4 (split; [assumption|]).
        intros j e r e' He Hr He'. destruct (Hj j e r e' He Hr He') as (wj & Hwj & Hok). rewrite upd_nth.
        destruct (Nat.eqb_spec i j) as [->|Hij].
        -- rewrite Hwj. eexists. split; [reflexivity|]. rewrite Ew in Hwj. inversion Hwj; subst wj.
           destruct (Nat.ltb_spec j j); [lia|]. subst w. destruct (Nat.ltb_spec j (S j)); [|lia]. rewrite Hw.
           unfold sent. destruct (request n c j) as [q|]; [left; reflexivity|reflexivity].
        -- exists wj. split; [exact Hwj|]. destruct (Nat.ltb_spec j i), (Nat.ltb_spec j (S i)); try lia; exact Hok.
      * inversion Hs; subst s'. clear Hs. apply nth_error_None in Ew.
        split; [exact Hw|]. split; [exact Hfit|]. exists (es, last), outs, pre.
        cbn [fst snd m_workers m_last m_phase m_todo m_done]. do 5 (split; [solve [auto]|]).
        cbn [phase_ok]. do 3 eexists. split; [exact Hc1|]. split; [exact Hf1|]. split; [exact Hc2|]. split; [exact Hout|].
        split; [lia|]. exists rs, am. do 4 (split; [assumption|]). split; [reflexivity|].
        intros j e r e' He Hr He'. destruct (Hj j e r e' He Hr He') as (wj & Hwj & Hok).
        exists wj. split; [exact Hwj|]. assert (j < n) by (rewrite <- Hes; apply nth_error_Some; congruence).
        destruct (Nat.ltb_spec j i); [|lia]. destruct (Nat.ltb_spec j 0); [lia|]. exact Hok.
    + destruct Hph as (s1 & a & outs' & Hc1 & Hf1 & Hc2 & Hout & Hi & rs & am & Hp & Hfin & Hsame & Hl' & Hacc & Hj).
      rewrite Hw in Hs. rewrite (bound_fits n c last Hf1 Hlast) in Hs. pose proof Hp as (Hp1 & Hp2 & Hp3).
      destruct (Nat.ltb_spec i n) as [Hin|Hin].
      * destruct (nth_ex es i ltac:(lia)) as [e He]. destruct (Hp3 i e He) as (r & e' & Hr & He' & Hone).
        destruct (Hj i e r e' He Hr He') as (w & Hwi & Hok).
        destruct (Nat.ltb_spec i i); [lia|]. rewrite Hes in Hone.
        rewrite (expects_request n c i Hf1 Hin) in Hs. unfold sent in Hok.
        destruct (request n c i) as [q|] eqn:Eq.
        -- rewrite Hwi in Hs. destruct Hok as [->|(r0 & Er & ->)]; cbn [w_out w_in w_env] in Hs; [discriminate|].
           inversion Hs; subst s'. clear Hs.
           split; [cbn; rewrite upd_len; exact Hw|]. split; [exact Hfit|]. exists (es, last), outs, pre.
           cbn [fst snd m_workers m_last m_phase m_todo m_done]. do 5 (split; [solve [auto]|]).
           cbn [phase_ok]. do 3 eexists. split; [exact Hc1|]. split; [exact Hf1|]. split; [exact Hc2|]. split; [exact Hout|].
           split; [lia|]. exists rs, am. do 4 (split; [assumption|]).
           split; [rewrite Hacc, Er in *; symmetry; apply firstn_snoc; congruence|].
           intros j ej rj ej' Hje Hjr Hje'. destruct (Hj j ej rj ej' Hje Hjr Hje') as (wj & Hwj & Hokj). rewrite upd_nth.
           destruct (Nat.eqb_spec i j) as [<-|Hij].
           ++ rewrite Hwj. eexists. split; [reflexivity|]. destruct (Nat.ltb_spec i (S i)); [|lia]. congruence.
           ++ exists wj. split; [exact Hwj|]. destruct (Nat.ltb_spec j i), (Nat.ltb_spec j (S i)); try lia; exact Hokj.
        -- inversion Hs; subst s'. clear Hs. destruct Hone as [-> ->].
           split; [exact Hw|]. split; [exact Hfit|]. exists (es, last), outs, pre.
           cbn [fst snd m_workers m_last m_phase m_todo m_done]. do 5 (split; [solve [auto]|]).
           cbn [phase_ok]. do 3 eexists. split; [exact Hc1|]. split; [exact Hf1|]. split; [exact Hc2|]. split; [exact Hout|].
           split; [lia|]. exists rs, am. do 4 (split; [assumption|]).
           split; [rewrite Hacc; symmetry; apply firstn_snoc; exact Hr|].
           intros j ej rj ej' Hje Hjr Hje'. destruct (Hj j ej rj ej' Hje Hjr Hje') as (wj & Hwj & Hokj).
           exists wj. split; [exact Hwj|]. destruct (Nat.eq_dec i j) as [<-|Hij].
           ++ destruct (Nat.ltb_spec i i); [lia|]. destruct (Nat.ltb_spec i (S i)); [|lia].
              rewrite Eq in Hokj. cbn [sent] in Hokj. congruence.
           ++ destruct (Nat.ltb_spec j i), (Nat.ltb_spec j (S i)); try lia; exact Hokj.
      * assert (i = n) by lia. subst i. rewrite Hacc in Hs. rewrite firstn_all2 in Hs by lia. rewrite Hfin in Hs.
        inversion Hs; subst s'. clear Hs.
        split; [exact Hw|]. split; [exact Hfit|]. exists s1, outs', (pre ++ [a]).
        cbn [fst snd m_workers m_last m_phase m_todo m_done].
        split; [lia|]. split; [exact Hl'|]. split; [reflexivity|]. split; [rewrite <- app_assoc; cbn; congruence|].
        split; [apply Forall2_app; [exact Hdn|constructor; [exact Hsame|constructor]]|].
        destruct s1 as [es1 last1]. cbn [fst snd phase_ok] in *. split; [exact Hc2|]. intros j e' He'.
        assert (Hjn : j < n) by (rewrite <- Hes, <- Hp2; apply nth_error_Some; congruence).
        destruct (nth_ex es j ltac:(lia)) as [e He]. destruct (nth_ex rs j ltac:(lia)) as [r Hr].
        destruct (Hj j e r e' He Hr He') as (w & Hwj & Hok). destruct (Nat.ltb_spec j n); [|lia]. congruence.
  - (* worker i *)
    cbn [mstep m_workers m_last m_phase m_todo m_done] in Hs.
    destruct (nth_error ws i) as [w|] eqn:Ew; [|discriminate].
    assert (Hi : i < n) by (rewrite <- Hw; apply nth_error_Some; congruence).
    destruct (nth_ex es i ltac:(lia)) as [e He].
    destruct (worker_step eseed w) as [w'|] eqn:Es; [|discriminate]. cbn [option_map] in Hs. inversion Hs; subst s'. clear Hs.
    assert (Hidle0 : forall e0, w <> idle e0) by (intros e0 ->; discriminate).
    (* serving a sent request keeps it sent *)
    assert (Hserve : forall c rs s1 r e', perenv c es rs s1 -> nth_error rs i = Some r -> nth_error s1 i = Some e' ->
              sent (request n c i) e r e' w -> sent (request n c i) e r e' w').
    { intros c rs s1 r e' (Hp1 & Hp2 & Hp3) Hr He' Hok. destruct (Hp3 i e He) as (r1 & e1 & Hr1 & He1 & Hone).
      rewrite Hes in Hone. unfold sent in *. destruct (request n c i) as [q|]; [|destruct (Hidle0 e Hok)].
      destruct Hok as [->|(r0 & -> & ->)]; [|discriminate]. destruct Hone as (r0 & -> & Hsv).
      unfold worker_step in Es. cbn [w_env w_in w_out] in Es. rewrite Hsv in Es. cbn [app] in Es. inversion Es; subst w'.
      right. exists r0. split; [congruence|]. congruence. }
    split; [cbn; rewrite upd_len; exact Hw|]. split; [exact Hfit|]. exists (es, last), outs, pre.
    cbn [fst snd m_workers m_last m_phase m_todo m_done]. do 5 (split; [solve [auto]|]).
    destruct ph as [|c k|c k acc|ex]; cbn [phase_ok] in *.
    + destruct Hph as [Hc Hidle]. pose proof (Hidle i e He). destruct (Hidle0 e). congruence.
    + destruct Hph as (s1 & a & outs' & Hc1 & Hf1 & Hc2 & Hout & Hk & rs & am & Hp & Hfin & Hsame & Hl' & Hj).
      exists s1, a, outs'. do 5 (split; [assumption|]). exists rs, am. do 4 (split; [assumption|]).
      intros j ej rj ej' Hje Hjr Hje'. destruct (Hj j ej rj ej' Hje Hjr Hje') as (wj & Hwj & Hok). rewrite upd_nth.
      destruct (Nat.eqb_spec i j) as [<-|Hij].
      * rewrite Hwj. eexists. split; [reflexivity|]. assert (wj = w) by congruence. subst wj.
        assert (ej = e) by congruence. subst ej.
        destruct (Nat.ltb_spec i k); [eapply Hserve; eassumption|destruct (Hidle0 _ Hok)].
      * exists wj. split; assumption.
    + destruct Hph as (s1 & a & outs' & Hc1 & Hf1 & Hc2 & Hout & Hk & rs & am & Hp & Hfin & Hsame & Hl' & Hacc & Hj).
      exists s1, a, outs'. do 5 (split; [assumption|]). exists rs, am. do 5 (split; [assumption|]).
      intros j ej rj ej' Hje Hjr Hje'. destruct (Hj j ej rj ej' Hje Hjr Hje') as (wj & Hwj & Hok). rewrite upd_nth.
      destruct (Nat.eqb_spec i j) as [<-|Hij].
      * rewrite Hwj. eexists. split; [reflexivity|]. assert (wj = w) by congruence. subst wj.
        assert (ej = e) by congruence. subst ej.
        destruct (Nat.ltb_spec i k); [destruct (Hidle0 _ Hok)|eapply Hserve; eassumption].
      * exists wj. split; assumption.
    + destruct Hph.
Qed.

Lemma inv_live : forall n s_fin all s, Inv n s_fin all s -> ~ (m_phase s = Ready /\ m_todo s = []) ->
  exists p s', mstep eseed s p = Some s'.
Proof.
  intros n s_fin all [ws last ph todo dn] (Hw & Hfit & [es last0] & outs & pre & Hes & Hlast & Hlo & Hall & Hdn & Hph) Hnf.
  cbn [m_workers m_last m_phase m_todo m_done fst snd] in *. subst last0.
  destruct ph as [|c i|c i acc|ex]; cbn [phase_ok] in Hph; [| | |destruct Hph].
  - destruct todo as [|c cs]; [destruct Hnf; auto|]. exists Parent.
    unfold mstep, parent_step. cbn [m_workers m_last m_phase m_todo m_done].
    destruct (admissible (length ws) c); eexists; reflexivity.
  - exists Parent. unfold mstep, parent_step. cbn [m_workers m_last m_phase m_todo m_done].
    destruct (nth_error ws i); eexists; reflexivity.
  - destruct Hph as (s1 & a & outs' & Hc1 & Hf1 & Hc2 & Hout & Hi & rs & am & Hp & Hfin & Hsame & Hl' & Hacc & Hj).
    unfold mstep, parent_step. cbn [m_workers m_last m_phase m_todo m_done]. rewrite Hw.
    pose proof Hp as (Hp1 & Hp2 & Hp3).
    destruct (Nat.eq_dec i n) as [->|Hne].
    + exists Parent. cbn [m_phase m_workers m_last m_todo m_done]. rewrite ?Hw, (bound_fits n c last Hf1 Hlast).
      destruct (Nat.ltb_spec n n); [lia|]. rewrite Hacc, firstn_all2 by lia. rewrite Hfin. eexists; reflexivity.
    + destruct (nth_ex es i ltac:(lia)) as [e He]. destruct (Hp3 i e He) as (r & e' & Hr & He' & Hone).
      destruct (Hj i e r e' He Hr He') as (w & Hwi & Hok). destruct (Nat.ltb_spec i i); [lia|]. rewrite Hes in Hone.
      unfold sent in Hok. destruct (request n c i) as [q|] eqn:Eq.
      * destruct Hok as [->|(r0 & -> & ->)].
        -- exists (Worker i). rewrite Hwi. destruct Hone as (r0 & _ & Hsv). unfold worker_step. cbn [w_env w_in w_out].
           rewrite Hsv. eexists; reflexivity.
        -- exists Parent. cbn [m_phase m_workers m_last m_todo m_done]. rewrite ?Hw, (bound_fits n c last Hf1 Hlast).
           destruct (Nat.ltb_spec i n); [|lia]. rewrite (expects_request n c i Hf1 ltac:(lia)), Eq, Hwi. eexists; reflexivity.
      * exists Parent. cbn [m_phase m_workers m_last m_todo m_done]. rewrite ?Hw, (bound_fits n c last Hf1 Hlast).
        destruct (Nat.ltb_spec i n); [|lia]. rewrite (expects_request n c i Hf1 ltac:(lia)), Eq. eexists; reflexivity.
Qed.

(** Every schedule is finite. *)
Definition mu (s : mstate) : nat :=
  let n := length (m_workers s) in
  length (m_todo s) * (3 * n + 4)
  + match m_phase s with
    | Ready | Failed _ => 0
    | Sending _ i => 2 * (n - i) + n + 3
    | Receiving c i _ => recv_bound n (m_last s) c - i + 1
    end
  + sum_of (fun w => length (w_in w)) (m_workers s).

Lemma bound_le : forall n (last : list (option O)) (c : call A), recv_bound n last c <= n.
Proof. intros n last [[m|]|acts|sd]; cbn [recv_bound]; lia. Qed.

Lemma mu_step : forall (s : mstate) p s', mstep eseed s p = Some s' -> mu s' < mu s.
Proof.
  intros [ws last ph todo dn] p s' H. unfold mu. destruct p as [|i].
  - cbn [mstep] in H. unfold parent_step in H. cbn [m_workers m_last m_phase m_todo m_done] in *.
    destruct ph as [|c i|c i acc|ex]; [| | |discriminate].
    + destruct todo as [|c cs]; [discriminate|]. destruct (admissible (length ws) c); inversion H; subst;
        cbn [m_workers m_last m_phase m_todo m_done length]; lia.
    + destruct (nth_error ws i) as [w|] eqn:Ew; inversion H; subst; cbn [m_workers m_last m_phase m_todo m_done].
      * rewrite upd_len. assert (i < length ws) by (apply nth_error_Some; congruence).
        match goal with |- context [upd ws i ?w'] => pose proof (@sum_upd _ (fun w => length (w_in w)) ws i w w' Ew) as Hsum end.
        destruct (request (length ws) c i) as [q|]; cbn [w_in] in Hsum; rewrite ?app_length in Hsum; cbn [length] in Hsum; lia.
      * pose proof (bound_le (length ws) last c). lia.
    + destruct (Nat.ltb_spec i (recv_bound (length ws) last c)) as [Hlt|].
      * destruct (expects c i).
        -- destruct (nth_error ws i) as [w|] eqn:Ew; [|discriminate]. destruct (w_out w) as [|r rs]; [discriminate|].
           inversion H; subst; cbn [m_workers m_last m_phase m_todo m_done]. rewrite upd_len.
           match goal with |- context [upd ws i ?w'] => pose proof (@sum_upd _ (fun w => length (w_in w)) ws i w w' Ew) as Hsum end.
           cbn [w_in] in Hsum. lia.
        -- inversion H; subst; cbn [m_workers m_last m_phase m_todo m_done]. lia.
      * destruct (finish_call c acc last) as [[l a]|ex]; inversion H; subst; cbn [m_workers m_last m_phase m_todo m_done]; lia.
  - cbn [mstep m_workers m_last m_phase m_todo m_done] in H. destruct (nth_error ws i) as [w|] eqn:Ew; [|discriminate].
    destruct (worker_step eseed w) as [w'|] eqn:Es; [|discriminate]. inversion H; subst; cbn [m_workers m_last m_phase m_todo m_done].
    rewrite upd_len. pose proof (@sum_upd _ (fun w => length (w_in w)) ws i w w' Ew) as Hsum.
    assert (length (w_in w') < length (w_in w)).
    { unfold worker_step in Es. destruct (w_env w) as [e|]; [|discriminate]. destruct (w_in w) as [|c cs]; [discriminate|].
      destruct (VectorEnv.serve E eseed e c) as [[e1 r]|ex]; inversion Es; subst; cbn; lia. }
    assert (1 <= sum_of (fun w => length (w_in w)) ws) by lia. lia.
Qed.

Lemma mrun_mu : forall sched (s s' : mstate), mrun eseed s sched = Some s' -> length sched + mu s' <= mu s.
Proof.
  induction sched as [|p sched IH]; intros s s' H; cbn [mrun] in H.
  - inversion H; subst. cbn. lia.
  - destruct (mstep eseed s p) as [s1|] eqn:E1; [|discriminate]. pose proof (mu_step _ _ _ E1). pose proof (IH _ _ H). cbn. lia.
Qed.

Lemma inv_run : forall n s_fin all sched s s', Inv n s_fin all s -> mrun eseed s sched = Some s' -> Inv n s_fin all s'.
Proof.
  intros n s_fin all. induction sched as [|p sched IH]; intros s s' HI H; cbn [mrun] in H.
  - inversion H; subst. exact HI.
  - destruct (mstep eseed s p) as [s1|] eqn:E1; [|discriminate]. eapply IH; [|exact H]. eapply inv_step; eassumption.
Qed.

Lemma Forall2_firstn : forall (T U : Type) (R : T -> U -> Prop) l m, Forall2 R l m -> length l = length m.
Proof. induction 1; cbn; congruence. Qed.

Lemma multiprocess_serial : forall es calls s_fin outs,
  Forall (call_fits (length es)) calls -> ser_calls E eseed (ser_init E es) calls = Ok (s_fin, outs) ->
  forall sched s, mrun eseed (minit E es calls) sched = Some s ->
  length sched <= length calls * (3 * length es + 4) /\
  Forall2 same_answer (firstn (length (m_done s)) outs) (m_done s) /\
  (m_phase s = Ready -> m_todo s = [] ->
     length (m_done s) = length outs /\
     m_workers s = map (fun e => mk_worker E [] [] (Some e)) (fst s_fin) /\ m_last s = snd s_fin) /\
  (~ (m_phase s = Ready /\ m_todo s = []) -> exists p s', mstep eseed s p = Some s').
Proof.
  intros es calls s_fin outs Hfit Hser sched s Hrun.
  assert (HI : Inv (length es) s_fin outs (minit E (SR := SR) es calls)).
  { split; [apply map_length|]. split; [exact Hfit|]. exists (ser_init E es), outs, [].
    cbn [fst snd ser_init minit m_workers m_last m_phase m_todo m_done]. split; [reflexivity|].
    split; [apply repeat_length|]. split; [reflexivity|]. split; [reflexivity|]. split; [constructor|].
    split; [exact Hser|]. intros j e He. rewrite nth_error_map, He. reflexivity. }
  pose proof (inv_run _ _ _ _ _ _ HI Hrun) as HI'. pose proof (mrun_mu _ _ _ Hrun) as Hmu.
  split.
  { assert (Hm0 : mu (minit E (SR := SR) es calls) = length calls * (3 * length es + 4)).
    { unfold mu, minit. cbn [m_workers m_last m_phase m_todo m_done]. rewrite map_length.
      assert (Hz : sum_of (fun w : worker => length (w_in w)) (map (fun e => idle e) es) = 0).
      { clear. induction es as [|e es IH]; [reflexivity|]. cbn in *. exact IH. }
      rewrite Hz. lia. }
    lia. }
  pose proof HI' as (Hw & Hf & [es1 last1] & outs1 & pre & Hes & Hlast & Hlo & Hall & Hdn & Hph).
  pose proof (Forall2_firstn _ _ _ _ _ Hdn) as Hlen. cbn [fst snd] in *.
  split; [rewrite Hall, <- Hlen, firstn_app, Nat.sub_diag, firstn_all, app_nil_r; exact Hdn|].
  split.
  - intros Hr Ht. rewrite Hr, Ht in Hph. cbn [phase_ok ser_calls] in Hph. destruct Hph as [Hc Hidle]. inversion Hc; subst.
    rewrite app_nil_r. split; [congruence|]. cbn [fst snd]. split; [|first [exact Hlo|reflexivity]].
    apply list_ext. intro j. rewrite nth_error_map. destruct (nth_error es1 j) as [e|] eqn:Ej; cbn [option_map].
    + apply Hidle, Ej.
    + apply nth_error_None in Ej. apply nth_error_None. lia.
  - intro Hnf. eapply inv_live; [exact HI'|exact Hnf].
Qed.
End Proofs.
