(** C46: Agent save/load round-trips and rejects cycles.
    Proved: the round trip for every acyclic attribute graph, for all entries
    that the files have; save rejects every cycle; load never succeeds on one.
    Refuted: load recurses without end on a cycle through two agents, and
    entries that did not exist when saving are not taken back. *)
From Coq Require Import String.
From Verif Require Import Base.PyBase Model.AttributeSaving Spec.AttributeSavingSpec Proofs.AttributeSavingProofs.
Local Open Scope nat_scope.

(** [save] followed, at any time, by [load]: whatever the contents [c1] at that
    time, every entry that any directly or indirectly saved object had is
    restored, and nothing else changes.  Missing: entries that the saved
    object did not have keep their current values. *)
Theorem C46_round_trip_partial : forall V limit g (c : contents V) d a f n,
  at_most g a n -> n <= limit -> ~ cyclic g a -> complete g a ->
  exists f', save limit g c d a f = Ok f' /\
  forall c1, exists c2, load limit g f' d a c1 = Ok c2 /\
  (forall l, owns g a l -> (forall k v, c l k = Some v -> c2 l k = Some v) /\ (forall k, c l k = None -> c2 l k = c1 l k)) /\
  (forall l, ~ owns g a l -> forall k, c2 l k = c1 l k).
Proof. exact round_trip. Qed.
Print Assumptions C46_round_trip_partial.

(** [save] writes exactly one file per attribute path, below the directory. *)
Theorem C46_files : forall V limit g (c : contents V) d a (f f' : fsys V), save limit g c d a f = Ok f' ->
  (forall p l, leads g a p l -> f' (d ++ p) = Some (c l)) /\
  (forall q, (forall p l, leads g a p l -> q <> d ++ p) -> f' q = f q).
Proof. exact save_files. Qed.
Print Assumptions C46_files.

(** [save] rejects every cycle, and needs no deeper recursion than there are
    agents to do so. *)
Theorem C46_save_rejects_cycles : forall V limit g (c : contents V) d a f n,
  at_most g a n -> n <= limit -> cyclic g a -> save limit g c d a f = Raise AssertionError.
Proof. exact save_rejects. Qed.
Print Assumptions C46_save_rejects_cycles.

(** [load] never succeeds on a cycle. *)
Theorem C46_load_fails_on_cycles_partial : forall V g a, cyclic g a ->
  forall limit (fs : fsys V) d c c', load limit g fs d a c <> Ok c'.
Proof. exact load_cyclic. Qed.
Print Assumptions C46_load_fails_on_cycles_partial.

(** But it does not reject a cycle through two agents: it exhausts the
    recursion limit, whatever that is. *)
Theorem C46_load_cycle_refuted : exists g a, cyclic g a /\ complete g a /\ at_most g a 2 /\
  forall limit (fs : fsys nat) d c, load limit g fs d a c = Raise RecursionError.
Proof.
  assert (A : forall a b : nat, a <= 1 -> b <= 1 -> a <> b -> has_agent ex_two_cycle a b).
  { intros a b Ha Hb N. exists "other"%string. split; [left; reflexivity|].
    destruct a as [|[|a]], b as [|[|b]]; try reflexivity; exfalso; try lia; congruence. }
  exists ex_two_cycle, 0. split; [|split; [|split]].
  - exists 0, 1. split; [apply reaches_here|]. split; [apply A; lia|].
    apply reaches_next with 0; [apply A; lia|apply reaches_here].
  - intros b x _ _. cbn. destruct b; discriminate.
  - exists [0; 1]. split; [reflexivity|]. intros b H.
    assert (K : forall a b, reaches ex_two_cycle a b -> a <= 1 -> b <= 1).
    { clear. intros a b R. induction R as [a|a a' c [x [_ E]] R IH]; intros Ha; [exact Ha|].
      apply IH. cbn in E. destruct a; injection E as <-; lia. }
    specialize (K 0 b H ltac:(lia)). cbn. lia.
  - intros limit fs d c.
    assert (G : forall a, a <= 1 -> load limit ex_two_cycle fs d a c = Raise RecursionError); [|apply G; lia].
    revert d. induction limit as [|limit IH]; intros d a Ha; [reflexivity|].
    cbn [load saved ex_two_cycle for_each getattr]. destruct a as [|[|a]]; [| |lia]; cbn [existsb Nat.eqb orb].
    + rewrite IH; [reflexivity|lia].
    + rewrite IH; [reflexivity|lia].
Qed.
Print Assumptions C46_load_cycle_refuted.

(** An optimizer saved before its first update has no state entries; loading
    that file after an update leaves the later entries in place. *)
Theorem C46_fresh_state_refuted : exists g a l limit (c c1 c2 : contents nat) f,
  owns g a l /\ save limit g c [] a (fun _ => None) = Ok f /\ load limit g f [] a c1 = Ok c2 /\
  c l "state"%string = None /\ c2 l "state"%string = Some 5.
Proof.
  exists ex_graph, 0, 1, 2, (fun _ _ => None), (fun _ _ => Some 5). do 2 eexists.
  split; [|split; [cbn; reflexivity|split; [cbn; reflexivity|split; reflexivity]]].
  exists ["opt"%string]. apply leads_leaf; [cbn; tauto|reflexivity].
Qed.
Print Assumptions C46_fresh_state_refuted.

(** Non-vacuity. *)
Example C46_case : at_most ex_graph 0 2 /\ ~ cyclic ex_graph 0 /\ complete ex_graph 0 /\
  leads ex_graph 0 ["inner"; "shared"]%string 0 /\ owns ex_graph 0 2.
Proof.
  assert (R : forall a b, has_agent ex_graph a b -> a = 0 /\ b = 1).
  { intros a b [x [Hx E]]. destruct a as [|[|a]]; [| |destruct Hx]; cbn [saved ex_graph] in Hx;
      repeat (destruct Hx as [<-|Hx]; [cbn in E; try discriminate; injection E as <-; split; reflexivity|]); destruct Hx. }
  assert (R1 : forall b, reaches ex_graph 0 b -> b = 0 \/ b = 1).
  { intros b H. inversion H as [|a b' c H1 H2]; subst; [left; reflexivity|].
    apply R in H1. destruct H1 as [_ ->]. inversion H2 as [|a b' c H1 H3]; subst; [right; reflexivity|].
    apply R in H1. destruct H1; discriminate. }
  split; [|split; [|split; [|split]]].
  - exists [0; 1]. split; [reflexivity|]. intros b H. destruct (R1 b H); subst; cbn; tauto.
  - intros [b [c [H1 [H2 H3]]]]. apply R in H2. destruct H2 as [-> ->].
    inversion H3 as [|a b' c H4 H5]; subst. apply R in H4. destruct H4; discriminate.
  - intros b x H Hx. destruct (R1 b H); subst; cbn [saved ex_graph] in Hx;
      repeat (destruct Hx as [<-|Hx]; [cbn; discriminate|]); destruct Hx.
  - apply leads_agent with 1; [cbn; tauto|reflexivity|]. apply leads_leaf; [cbn; tauto|reflexivity].
  - exists ["inner"; "m"]%string. apply leads_agent with 1; [cbn; tauto|reflexivity|].
    apply leads_leaf; [cbn; tauto|reflexivity].
Qed.
