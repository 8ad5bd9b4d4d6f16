(** C06-C08: PrioritizedBuffer. *)
From Coq Require Import QArith.
From Verif Require Import Base.PyBase Model.Num Model.Random Model.TreeQueue Model.PrioritizedBuffer
     Spec.RandomSpec Spec.PrioritySpec Spec.PrioritizedBufferSpec Spec.PrioritizedBufferHistory
     Proofs.PrioritizedBufferProofs Proofs.PrioritizedBufferHistoryProofs.
Open Scope Q_scope.

(** C06, C07, C08 (exact arithmetic): used as documented (append, popleft, and
    sample followed by set_last_priority), no call ever raises, and the buffer
    behaves as the plain bounded list of (item, priority) pairs: the update
    changes the priorities of exactly the sampled items, reported probabilities
    are [sel_prob], and the weights used for sampling equal the priorities. *)
Theorem C06_buffer_refines_pair_list :
  forall (X : Type) (cap : option nat) (m : Q) (us : list (use X)),
  0 < m -> safe cap ([], m) us ->
  exists os (b : pb QNum X) l' m', use_run (pb_init QNum cap true m) us = Ok (os, b) /\ map fst os = us /\
    use_steps cap ([], m) os (l', m') /\ stores b l' m' /\
    match cap with Some c => (length (pb_data b) <= c)%nat | None => True end.
Proof. exact @pb_refines. Qed.
Print Assumptions C06_buffer_refines_pair_list.

(** C06, for any number type (so also IEEE doubles) and any interleaving of
    successful calls: the items are the newest [cap] appended ones in order,
    each tree holds one entry per item, and the default priority is the largest
    priority set so far. *)
Theorem C06_lockstep_any_history :
  forall (N : num) (X : Type) (cap : option nat) (wait : bool) (m : nV N) (os : list (pb_op N X)) (b : pb N X),
  pb_execs (pb_init N cap wait m) os = Ok b ->
  pb_data b = fold_left (@items_step N X cap) os [] /\
  pb_max b = fold_left (@largest_set N X) os m /\
  tq_len (pb_sums b) = Z.of_nat (length (pb_data b)) /\
  tq_len (pb_mins b) = Z.of_nat (length (pb_data b)) /\
  match cap with Some c => (length (pb_data b) <= c)%nat | None => True end.
Proof. exact @pb_history. Qed.
Print Assumptions C06_lockstep_any_history.

(** C06 fails for explicit priorities: an item appended with priority 5 is not
    taken into account, the next default priority is still 1. *)
Theorem C06_explicit_priority_not_in_max_refuted :
  exists b : pb QNum nat,
    pb_execs (pb_init QNum None true 1) [PAppend QNum 0%nat (Some 5); PAppend QNum 1%nat None] = Ok b /\
    priorities b = [Some 5; Some 1].
Proof. eexists. split; vm_compute; reflexivity. Qed.
Print Assumptions C06_explicit_priority_not_in_max_refuted.

(** C07 fails when items are appended to a full buffer between sampling and
    updating: of the items 0,1,2 (capacity 3) item 1 is sampled, item 3 is
    appended (evicting item 0), then the new priority 5 meant for item 1 is given
    to item 2, and item 1 keeps weight zero: it can never be sampled by priority
    again until it is sampled uniformly or evicted. *)
Definition ex_draw : draws QNum := mk_draws QNum 0 0 (mk_rng [] (fun _ => [])) (fun _ => 1#2).
Theorem C07_interleaved_append_refuted :
  exists (b b1 b2 b3 : pb QNum nat) probs mp,
    pb_execs (pb_init QNum (Some 3%nat) true 1) [PAppend QNum 0%nat None; PAppend QNum 1%nat None; PAppend QNum 2%nat None] = Ok b /\
    pb_sample b 1 0 ex_draw = Ok ([1%nat], probs, mp, b1) /\
    pb_append b1 3%nat None = Ok b2 /\
    pb_set_last b2 [5] = Ok b3 /\
    pb_data b3 = [1; 2; 3]%nat /\
    weights b3 = [Some 0; Some 5; Some 1] /\ priorities b3 = [Some 1; Some 5; Some 1].
Proof. do 6 eexists. repeat (split; [vm_compute; reflexivity|]). vm_compute; reflexivity. Qed.
Print Assumptions C07_interleaved_append_refuted.

(** C08: the selection probabilities sum to one, ... *)
Theorem C08_probabilities_sum_to_one : forall ur pris, pris <> [] -> (forall p, In p pris -> 0 < p) ->
  sumQ (map (sel_prob ur pris) pris) == 1.
Proof. exact sel_prob_total. Qed.
Print Assumptions C08_probabilities_sum_to_one.

(** ... and the reported minimum (the probability of a minimal priority, by
    [C06_buffer_refines_pair_list]) is a positive lower bound that is attained. *)
Theorem C08_minimum_probability : forall ur pris m, 0 <= ur <= 1 -> (forall p, In p pris -> 0 < p) -> is_minQ pris m ->
  (forall p, In p pris -> sel_prob ur pris m <= sel_prob ur pris p) /\
  (exists p, In p pris /\ sel_prob ur pris m == sel_prob ur pris p) /\ 0 < sel_prob ur pris m.
Proof. exact sel_prob_min. Qed.
Print Assumptions C08_minimum_probability.

(** A history meeting the hypotheses: a buffer of capacity 2 sees three items, a
    sampling with mixture ratio 1/4 (one uniform, one prioritized pick) followed
    by an update, and a further append. *)
Definition ex_draw2 : draws QNum :=
  mk_draws QNum 1 0 (mk_rng [1%Z] (fun b => match b with O => [0%Z; 0%Z] | _ => [0%Z] end)) (fun _ => 1#3).
Definition ex_uses : list (use nat) :=
  [UAppend 10%nat None; UAppend 11%nat (Some 3); UAppend 12%nat None;
   UUpdate 2 (1#4) ex_draw2 [7; 2]; UAppend 13%nat None].
Example C06_example_draws : draws_ok 2 2 (1#4) ex_draw2.
Proof.
  split; [split; discriminate|]. split; [cbn; lia|]. split; [lia|]. split; [intros k; split; [discriminate|reflexivity]|].
  split; [|exists [1%Z]; reflexivity].
  split; [split; [reflexivity|split]|].
  - constructor; [intros []|constructor].
  - intros x [<-|[]]. cbn. lia.
  - split; [reflexivity|]. split; [intros [|b] Hb; [lia|reflexivity]|].
    intros [|b] x Hx; cbn in Hx; intuition lia.
Qed.
Example C06_example_safe : safe (Some 2%nat) ([], 1) ex_uses.
Proof.
  unfold ex_uses.
  do 3 (constructor; [split; [try exact I; reflexivity|discriminate]|]; intros o s' Hs; inversion Hs; subst; clear Hs).
  cbn. constructor.
  - split; [discriminate|]. split; [exact C06_example_draws|]. split; [reflexivity|].
    intros p [<-|[<-|[]]]; reflexivity.
  - intros o s' Hs. constructor; [split; [exact I|discriminate]|]. constructor.
Qed.
Example C06_example_run :
  match use_run (pb_init QNum (Some 2%nat) true 1) ex_uses with
  | Ok (os, b) => map snd os = [OUnit; OUnit; OUnit; OSampled [12; 11]%nat [40#128; 88#128] (40#128); OUnit] /\
                  pb_data b = [12; 13]%nat /\ priorities b = [Some 7; Some 7] /\ weights b = [Some 7; Some 7]
  | Raise _ => False
  end.
Proof. vm_compute. auto. Qed.
