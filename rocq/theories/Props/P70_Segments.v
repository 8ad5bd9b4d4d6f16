From Verif Require Import Base.PyBase Model.SegmentAgent Spec.SegmentSpec Proofs.SegmentProofs.
Set Implicit Arguments.

(** C70: ACER and PCL, for every interaction in which a stop only follows an
    action, whatever the networks answer: the agent never raises; every episode is
    cut into segments of [t_max] steps (the last may be shorter), each is used for
    exactly one loss, with the value of the state after it unless that is
    terminal; every [batch] segments make one update followed by the replay
    updates; and every step is stored exactly once, in order, with the
    distribution its action was drawn from, episode by episode.  Of the running
    episode, the full segments and all steps whose outcome is known. *)
Theorem C70_interaction : forall (Obs Act D Rw : Type) (c : sconf) (ops : list (sop Obs Act D Rw)),
  positive (c_tmax c) -> 0 < batch_of c -> (c_buffer c = true \/ c_kind c = KAcer) -> sformed false ops = true ->
  exists l g, sruns c sagent_init ops = Ok (l, g) /\
    let '(eps, ep, cur) := episodes_of None [] ops in
    filter is_work l = work_from (c_online c) (batch_of c) (c_replays c) 1 (all_segments (c_tmax c) eps ep) /\
    filter is_buffer l = if c_buffer c then flat_map stored_closed eps ++ stored_open ep cur else [].
Proof. exact @interaction. Qed.
Print Assumptions C70_interaction.

(** The segments of an episode are the episode, in order: no step is left out and
    none is used twice; all but the last have [t_max] steps. *)
Theorem C70_segments : forall (A : Type) (n : option nat) (l : list A), positive n ->
  concat (segments n l) = l /\
  match n with
  | Some m => exists q r, segments n l = q ++ r /\ Forall (fun s => length s = m) q /\ length r <= 1 /\ Forall (fun s => 0 < length s < m) r
  | None => segments n l = match l with [] => [] | _ => [l] end
  end.
Proof.
  intros A n l H. split; [apply segments_concat, H|]. destruct n as [m|]; [apply segments_sizes, H | destruct l; reflexivity].
Qed.
Print Assumptions C70_segments.

(** An episode of three steps, then two steps of the next; segments of two. *)
Definition ex_ops : list (sop nat nat nat nat) :=
  [SAct 1 0 11 21; SAct 2 100 12 22; SAct 3 200 13 23; SStop 4 300 true; SStopEp; SAct 5 0 15 25; SAct 6 500 16 26].
Example C70_interaction_example_acer : sformed false ex_ops = true /\
  exists g, sruns (mk_sconf KAcer (Some 2) true 1 0 true) sagent_init ex_ops =
  Ok ([VAppend (mk_strans 1 11 100 2 12 false 21);
       VLoss [(1, 11, 21, 100); (2, 12, 22, 200)] (Some 3); VUpdate; VReplay; VAppend (mk_strans 2 12 200 3 13 false 22);
       VLoss [(3, 13, 23, 300)] None; VUpdate; VReplay; VAppend (mk_strans 3 13 300 4 13 true 23); VEnd;
       VAppend (mk_strans 5 15 500 6 16 false 25)], g).
Proof.
  split; [reflexivity|]. match goal with |- exists g, ?t = _ => let r := eval vm_compute in t in match r with Ok (_, ?g) => exists g end end. vm_compute. reflexivity.
Qed.
(** PCL with two segments per update. *)
Example C70_interaction_example_pcl :
  exists g, sruns (mk_sconf KPcl (Some 2) true 1 2 true) sagent_init ex_ops =
  Ok ([VAppend (mk_strans 1 11 100 2 12 false 21);
       VLoss [(1, 11, 21, 100); (2, 12, 22, 200)] (Some 3); VAppend (mk_strans 2 12 200 3 13 false 22);
       VLoss [(3, 13, 23, 300)] None; VUpdate; VReplay; VAppend (mk_strans 3 13 300 4 13 true 23); VEnd;
       VAppend (mk_strans 5 15 500 6 16 false 25)], g).
Proof.
  match goal with |- exists g, ?t = _ => let r := eval vm_compute in t in match r with Ok (_, ?g) => exists g end end. vm_compute. reflexivity.
Qed.

(** C70 fails for PCL with its default arguments, which leave [replay_buffer] at
    [None]: every first episode raises at its second call. *)
Theorem C70_pcl_default_refuted : forall (Obs Act D Rw : Type) (o : Obs) (r : Rw) (a : Act) (d : D) op ops,
  match op with SStopEp => False | _ => True end ->
  sruns (mk_sconf KPcl None true 1 1 false) sagent_init (SAct o r a d :: op :: ops) = Raise AttributeError.
Proof. intros Obs Act D Rw o r a d [o' r' a' d'|o' r' done|] ops H; [reflexivity | destruct done; reflexivity | destruct H]. Qed.
Print Assumptions C70_pcl_default_refuted.

(** C69 fails for ACER and PCL too: resumed at any step but 0 (with online
    updates), the first episode, whatever it is, ends in an exception. *)
Theorem C69_acer_pcl_refuted : forall (Obs Act D Rw : Type) (c : sconf) offset (acts : list (Obs * Rw * Act * D)) o r done,
  c_online c = true -> 0 < offset ->
  exists e, sruns c (sagent_resumed offset) (map (fun '(o, r, a, d) => SAct o r a d) acts ++ [SStop o r done]) = Raise e.
Proof. intros Obs Act D Rw c offset acts o r done Ho Hoff. apply resumed_raises with 0; [exact Ho | reflexivity | exact Hoff | reflexivity]. Qed.
Print Assumptions C69_acer_pcl_refuted.
