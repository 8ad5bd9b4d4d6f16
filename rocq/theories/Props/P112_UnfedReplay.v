(** C112: prioritized replay of episodes by an agent that reports no errors. *)
From Coq Require Import QArith.
From Verif Require Import Base.PyBase Model.Num Model.Random Model.PrioritizedBuffer Model.ReplayBuffer Model.EpisodicReplayBuffer
     Spec.RandomSpec Spec.PrioritySpec Spec.PrioritizedBufferSpec Spec.UnfedReplaySpec Proofs.UnfedReplayProofs.
Local Open Scope nat_scope.

(** Refuted: PCL can replay again and again from a PrioritizedEpisodicReplayBuffer as it is made by default, which waits for priorities.  After a sample, for as long as no
    errors are reported and whatever is added, every further sample fails; PCL never reports any.  This holds for every number type, default priority, ratio and draws. *)
Theorem C112_waiting_refuted : forall (N : num) (T : Type) (dpf : option (list T -> nV N)) (ur : nV N) (pri_of : list (nV N) -> list (nV N))
    cap (b0 b : perb N T) os1 n d os2, perb_init N cap true = Ok b0 ->
  perb_run dpf ur pri_of b0 (os1 ++ ESample n d :: os2) = Ok b -> Forall reports_nothing os2 ->
  forall n' d' max_len draw, perb_sample_episodes ur b n' d' max_len draw = Raise AssertionError.
Proof. exact second_replay. Qed.
Print Assumptions C112_waiting_refuted.

(** With wait_priority_after_sampling=False: after every history that reports no errors, each stored episode has the priority it was given and is sampled by it; every
    further sample succeeds, gives as many (parts of) stored episodes as asked for with the right probabilities and minimum, and changes neither the episodes nor their
    priorities; without uniform samples the episodes are different ones. *)
Theorem C112_not_waiting_partial : forall (T : Type) (dpf : option (list T -> Q)) (ur : Q),
  match dpf with Some f => forall ep, (0 < f ep)%Q | None => True end ->
  forall cap b0 os b, perb_init QNum cap false = Ok b0 -> unfed dpf ur b0 os b ->
  keeps dpf b /\
  forall n d ml draw, pb_data (pe_eps b) <> [] -> draws_ok (length (pb_data (pe_eps b))) n ur d ->
  let pris := map (given dpf) (pb_data (pe_eps b)) in
  exists ixs eps probs mp b', perb_sample_episodes (N := QNum) ur b n d ml draw = Ok (subseqs eps ml draw, probs, mp, b') /\
    length ixs = n /\ ((ur == 0)%Q -> NoDup ixs) /\
    Forall2 (fun i ep => nth_error (pb_data (pe_eps b)) i = Some ep) ixs eps /\
    Forall2 (fun ep pr => (pr == sel_prob ur pris (given dpf ep))%Q) eps probs /\
    (exists m, is_minQ pris m /\ (mp == sel_prob ur pris m)%Q) /\
    keeps dpf b' /\ pb_data (pe_eps b') = pb_data (pe_eps b) /\ pe_cur b' = pe_cur b.
Proof. exact @unfed_replays. Qed.
Print Assumptions C112_not_waiting_partial.

(** Without a default_priority_func, such a buffer is never anything but uniform: each of its episodes always has the same probability. *)
Theorem C112_uniform : forall (T : Type) (ur : Q) (data : list (list T)), data <> [] ->
  forall ep : list T, (sel_prob ur (map (given None) data) (given None ep) == 1 / inject_Z (Z.of_nat (length data)))%Q.
Proof. exact @uniform_for_ever. Qed.
Print Assumptions C112_uniform.

Definition two_episodes : list (rb_op nat) := [RAppend 0 10 false; RAppend 0 11 true; RAppend 0 20 true].
Definition run112 (wait : bool) (ur : Q) (os : list (perb_op QNum nat)) : res (perb QNum nat) :=
  let! b0 := perb_init QNum (Some 9) wait in perb_run (N := QNum) None ur (fun es => es) b0 os.
Definition a_draw : draws QNum := mk_draws QNum 1 0 (mk_rng [1%Z] (fun b => match b with O => [0%Z; 0%Z] | _ => [0%Z] end)) (fun _ => 3 # 4).
(** These draws are possible: one uniform sample, of position 1, and one by priority. *)
Example a_draw_ok : draws_ok 2 2 (1 # 2) a_draw.
Proof.
  split; [split; discriminate|]. split; [cbn; lia|]. split; [lia|]. split; [intros k; split; [discriminate|reflexivity]|].
  split; [|exists [1%Z]; reflexivity].
  split; [split; [reflexivity|split]|].
  - constructor; [intros []|constructor].
  - intros x [<-|[]]. cbn. lia.
  - split; [reflexivity|]. split; [intros [|b] Hb; [lia|reflexivity]|].
    intros [|b] x Hx; cbn in Hx; intuition lia.
Qed.

(** Refuted: "Sample n unique samples from this replay buffer" (prioritized_episodic.py:42).  With uniform_ratio 1/2 and without waiting, possible draws give the second of
    the two stored episodes twice: once uniformly, once by priority. *)
Theorem C112_duplicates_refuted : exists b probs mp b',
  run112 false (1 # 2) (map (@EOp QNum nat) two_episodes) = Ok b /\ pb_data (pe_eps b) = [[10; 11]; [20]] /\ draws_ok 2 2 (1 # 2) a_draw /\
  perb_sample_episodes (N := QNum) (1 # 2) b 2 a_draw None (fun _ => 0) = Ok ([[20]; [20]], probs, mp, b').
Proof. do 4 eexists. split; [vm_compute; reflexivity|]. split; [reflexivity|]. split; [exact a_draw_ok|]. vm_compute. reflexivity. Qed.
Print Assumptions C112_duplicates_refuted.

(** A history for the first theorem: a sample, and another episode after it. *)
Example C112_waiting_case : exists b,
  run112 true (1 # 2) (map (@EOp QNum nat) two_episodes ++ ESample 2 a_draw :: [EOp QNum (RAppend 0 30 true)]) = Ok b /\ pb_data (pe_eps b) = [[10; 11]; [20]; [30]].
Proof. eexists. split; [vm_compute; reflexivity|reflexivity]. Qed.
(** A history for the second: two episodes, two samples, and another episode. *)
Example C112_not_waiting_case : exists b0 b, perb_init QNum (Some 9) false = Ok b0 /\
  unfed None (1 # 2) b0 (map (@EOp QNum nat) two_episodes ++ [ESample 2 a_draw; ESample 2 a_draw; EOp QNum (RAppend 0 30 true)]) b /\ pb_data (pe_eps b) = [[10; 11]; [20]; [30]].
Proof.
  do 2 eexists. split; [vm_compute; reflexivity|]. split.
  - cbn [map two_episodes app]. do 3 (eapply unfed_add; [vm_compute; reflexivity|]).
    do 2 (eapply unfed_sample; [exact a_draw_ok|vm_compute; reflexivity|]). eapply unfed_add; [vm_compute; reflexivity|]. apply unfed_none.
  - reflexivity.
Qed.
