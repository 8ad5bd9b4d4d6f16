(** C13, C14, C15: episodic replay buffers. *)
From Coq Require Import QArith.
From Verif Require Import Base.PyBase Model.Num Model.Random Model.TreeQueue Model.RandomAccessQueue Model.PrioritizedBuffer
     Model.ReplayBuffer Model.EpisodicReplayBuffer Spec.BoundedList Spec.EpisodeSpec Proofs.EpisodicProofs.
Local Open Scope nat_scope.

(** C13: after any history no call has raised, the buffer holds the newest ended
    episodes that fit into [cap] transitions, and the flat view is their
    concatenation. *)
Theorem C13_episodic_buffer : forall (T : Type) (cap : option nat) (os : list (rb_op T)),
  exists b0 b, erb_init cap = Ok b0 /\ erb_run b0 os = Ok b /\
    newest_within cap (ended os) (raq_iter (er_eps b)) /\
    raq_iter (er_mem b) = map (fun t => Win [t]) (concat (raq_iter (er_eps b))) /\
    erb_n_episodes b = length (raq_iter (er_eps b)) /\
    match cap with Some c => erb_len b <= c | None => True end.
Proof. exact @erb_history. Qed.
Print Assumptions C13_episodic_buffer.

(** The episode that ended last is kept whole if it fits. *)
Theorem C13_last_episode_kept : forall (T : Type) cap (log kept : list (list T)) ep,
  newest_within (Some cap) (log ++ [ep]) kept -> length ep <= cap -> exists kept', kept = kept' ++ [ep].
Proof. exact @newest_keeps_last. Qed.
Print Assumptions C13_last_episode_kept.

Definition ex_ops : list (rb_op nat) :=
  [RAppend 0 1 false; RAppend 1 10 false; RAppend 0 2 true; RAppend 1 11 false; RStop 1; RAppend 0 3 true; RAppend 0 4 false].
Example C13_example : ended ex_ops = [[1; 2]; [10; 11]; [3]] /\
  exists b0 b, erb_init (Some 4) = Ok b0 /\ erb_run b0 ex_ops = Ok b /\ raq_iter (er_eps b) = [[10; 11]; [3]].
Proof. split; [reflexivity|]. do 2 eexists. split; [vm_compute; reflexivity|]. split; [vm_compute; reflexivity|]. vm_compute; reflexivity. Qed.

(** Loading a v0.2 file recovers exactly the episodes that ended in it. *)
Theorem C13_load_v02_partial : forall (T : Type) (terminal : T -> bool) (b : erb T) (ts : list T),
  exists b' rest, erb_load terminal b (EOld ts) = Ok b' /\ splits terminal ts (raq_iter (er_eps b')) rest /\
    raq_iter (er_mem b') = map (@Bare T) ts /\ er_cap b' = er_cap b.
Proof. exact @load_v02. Qed.
Print Assumptions C13_load_v02_partial.
Example C13_load_v02_example : exists b0 b1 : erb nat, erb_init None = Ok b0 /\
  erb_load (fun t => t mod 3 =? 0) b0 (EOld [1; 2; 3; 6; 7]) = Ok b1 /\ raq_iter (er_eps b1) = [[1; 2; 3]; [6]].
Proof. do 2 eexists. repeat (split; [vm_compute; reflexivity|]). vm_compute. reflexivity. Qed.

(** C13 fails after loading a v0.2 file: entries of the flat view are bare
    transitions instead of one-element windows, and the transitions of a trailing
    unfinished episode are in the flat view but in no episode. *)
Theorem C13_load_v02_refuted :
  exists b0 b1 : erb nat, erb_init None = Ok b0 /\
    erb_load (fun t => t =? 2) b0 (EOld [1; 2; 3]) = Ok b1 /\
    raq_iter (er_eps b1) = [[1; 2]] /\ raq_iter (er_mem b1) = [Bare 1; Bare 2; Bare 3] /\
    raq_iter (er_mem b1) <> map (fun t => Win [t]) (concat (raq_iter (er_eps b1))).
Proof. do 2 eexists. repeat (split; [vm_compute; reflexivity|]). vm_compute. discriminate. Qed.
Print Assumptions C13_load_v02_refuted.

(** C14 (partial: the flat view is only a superset): after any history of
    successful calls the stored episodes are the newest that fit, capacity_left
    is capacity minus their transitions (so never negative), and the flat view
    holds the newest [cap] transitions, ending with those of the stored
    episodes.  The claim that the flat view equals the stored episodes is refuted
    below. *)
Theorem C14_capacity_accounting_partial : forall (N : num) (T : Type) (dpf : option (list T -> nV N)) (ur : nV N)
    (pri_of : list (nV N) -> list (nV N)) (cap : option nat) (wait : bool) (os : list (perb_op N T)) (b0 b : perb N T),
  perb_init N cap wait = Ok b0 -> perb_run dpf ur pri_of b0 os = Ok b ->
  newest_within cap (ended (episode_ops os)) (pb_data (pe_eps b)) /\
  pe_left b = option_map (fun c => Z.of_nat c - Z.of_nat (total (pb_data (pe_eps b))))%Z cap /\
  (match cap with Some c => total (pb_data (pe_eps b)) <= c | None => True end) /\
  raq_iter (pe_mem b) = trim cap (concat (ended (episode_ops os))) /\
  (exists older, raq_iter (pe_mem b) = older ++ concat (pb_data (pe_eps b))).
Proof. exact @perb_history. Qed.
Print Assumptions C14_capacity_accounting_partial.

Definition run14 (cap : nat) (os : list (perb_op QNum nat)) : res (perb QNum nat) :=
  let! b0 := perb_init QNum (Some cap) true in perb_run (N := QNum) None 0%Q (fun es => es) b0 os.
Example C14_example : exists b, run14 4 (map (@EOp QNum nat) ex_ops) = Ok b /\
  pb_data (pe_eps b) = [[10; 11]; [3]] /\ pe_left b = Some 1%Z.
Proof. eexists. split; [vm_compute; reflexivity|]. split; reflexivity. Qed.

(** The flat view (and so len()) disagrees with the stored episodes: two
    episodes of two transitions, capacity 3. *)
Theorem C14_flat_view_refuted :
  exists b, run14 3 [EOp _ (RAppend 0 1 false); EOp _ (RAppend 0 2 true); EOp _ (RAppend 0 3 false); EOp _ (RAppend 0 4 true)] = Ok b /\
    pb_data (pe_eps b) = [[3; 4]] /\ raq_iter (pe_mem b) = [2; 3; 4] /\
    raq_iter (pe_mem b) <> concat (pb_data (pe_eps b)).
Proof. eexists. repeat (split; [vm_compute; reflexivity|]). vm_compute. discriminate. Qed.
Print Assumptions C14_flat_view_refuted.

(** An episode longer than the capacity empties the episode store while len()
    still reports a full buffer. *)
Theorem C14_long_episode_refuted :
  exists b, run14 2 [EOp _ (RAppend 0 1 true); EOp _ (RAppend 0 2 false); EOp _ (RAppend 0 3 false); EOp _ (RAppend 0 4 true)] = Ok b /\
    pb_data (pe_eps b) = [] /\ raq_len (pe_mem b) = 2.
Proof. eexists. repeat (split; [vm_compute; reflexivity|]). vm_compute. reflexivity. Qed.
Print Assumptions C14_long_episode_refuted.

(** Accounting is lost by load: a new buffer of capacity 2 that loads a full one
    still believes it has 2 free places and then stores 4 transitions. *)
Theorem C14_load_accounting_refuted :
  exists b0 b1 b2 b3,
    run14 2 [EOp _ (RAppend 0 1 false); EOp _ (RAppend 0 2 true)] = Ok b0 /\
    perb_init QNum (Some 2) true = Ok b1 /\
    perb_load b1 (perb_save b0) = b2 /\ pe_left b2 = Some 2%Z /\ total (pb_data (pe_eps b2)) = 2 /\
    perb_run (N := QNum) None 0%Q (fun es => es) b2 [EOp _ (RAppend 0 3 false); EOp _ (RAppend 0 4 true)] = Ok b3 /\
    total (pb_data (pe_eps b3)) = 4.
Proof. do 4 eexists. repeat (split; [vm_compute; reflexivity|]). vm_compute. reflexivity. Qed.
Print Assumptions C14_load_accounting_refuted.

(** C15: random_subseq. *)
Theorem C15_random_subseq : forall (A : Type) (seq : list A) L i, i < length seq - L + 1 ->
  (length seq <= L -> random_subseq seq L i = seq) /\
  (L < length seq -> exists pre post, seq = pre ++ random_subseq seq L i ++ post /\
      length pre = i /\ length (random_subseq seq L i) = L).
Proof. exact @random_subseq_spec. Qed.
Print Assumptions C15_random_subseq.

(** Every contiguous block is the result of exactly the draw at its position,
    and that draw is in the generator's range. *)
Theorem C15_every_block_possible : forall (A : Type) (seq pre post mid : list A),
  seq = pre ++ mid ++ post -> length mid < length seq ->
  length pre < length seq - length mid + 1 /\ random_subseq seq (length mid) (length pre) = mid.
Proof. exact @random_subseq_all. Qed.
Print Assumptions C15_every_block_possible.
Example C15_example : random_subseq [1; 2; 3; 4] 2 1 = [2; 3].
Proof. reflexivity. Qed.
