(** C85: a monitored environment records every episode exactly once, also when it is reset before
    the episode is done. *)
From Coq Require Import Reals List Bool Lra.
From Verif Require Import Base.PyBase Model.Monitor Spec.SumSpec Spec.MonitorSpec Proofs.MonitorProofs.
Import ListNotations.
Local Open Scope R_scope.

(** Once the monitor is closed, the statistics and the file hold the length and the return of every
    episode with at least one step, in order and once each, however the episodes ended, and the
    lengths add up to the steps made. *)
Theorem C85_closed : forall cs s os, monitor_run fresh cs = (s, os) -> In CClose cs -> resets_repeated false (events cs os) = true ->
  records s = map summary (all_episodes (events cs os)) /\ file s = Some (records s) /\ total_steps s = steps_made (events cs os) /\ fold_right plus 0%nat (map fst (records s)) = total_steps s.
Proof. exact closed_ok. Qed.
(** Before, they hold exactly the episodes that are over, and there is no file. *)
Theorem C85_open : forall cs s os, monitor_run fresh cs = (s, os) -> ~ In CClose cs -> resets_repeated false (events cs os) = true ->
  records s = map summary (finished_episodes (events cs os)) /\ file s = None /\ total_steps s = steps_made (events cs os).
Proof. exact open_ok. Qed.
(** A step is refused exactly when the environment was not reset or its episode is done. *)
Theorem C85_steps : forall cs s os r d, monitor_run fresh cs = (s, os) -> ~ In CClose cs -> resets_repeated false (events cs os ++ [Got r d]) = true ->
  snd (monitor_call s (CStep (Some (r, d)))) = if may_step false (events cs os) then Ok tt else Raise RuntimeError.
Proof. exact step_ok. Qed.
(** A reset is never refused before closing. *)
Theorem C85_resets : forall cs s os ok, monitor_run fresh cs = (s, os) -> ~ In CClose cs -> snd (monitor_call s (CReset ok)) = if ok then Ok tt else Raise ValueError.
Proof. exact reset_never_refused. Qed.
(** After closing nothing changes: resets and steps are refused and closing again does nothing. *)
Theorem C85_after_close : forall cs1 cs2 s os, monitor_run fresh (cs1 ++ CClose :: cs2) = (s, os) ->
  ~ In CClose cs1 -> resets_repeated false (events (cs1 ++ CClose :: cs2) os) = true ->
  exists o1 o2, os = o1 ++ Ok tt :: o2 /\ length o1 = length cs1 /\ monitor_run fresh (cs1 ++ [CClose]) = (s, o1 ++ [Ok tt]) /\ Forall2 (fun c o => c <> CClose -> o = Raise AssertionError) cs2 o2.
Proof. exact after_close_ok. Qed.
(** REFUTED: that it holds too when the environment is stepped after a reset that raised.  The steps
    before it are counted twice. *)
Theorem C85_failed_reset_refuted : forall r1 r2, let cs := [CReset true; CStep (Some (r1, true)); CReset false; CStep (Some (r2, true)); CClose] in
  exists s os, monitor_run fresh cs = (s, os) /\ map fst (records s) = [1; 2]%nat /\ steps_made (events cs os) = 2%nat.
Proof. intros. eexists _, _. split; [reflexivity|split; reflexivity]. Qed.
(** REFUTED: that there is one episode type for every recorded episode.  Resets without a step
    before them add one too. *)
Theorem C85_types_refuted : forall n, let cs := repeat (CReset true) n ++ [CClose] in
  exists s os, monitor_run fresh cs = (s, os) /\ types s = n /\ records s = [].
Proof. exact idle_types. Qed.
Print Assumptions C85_closed.
Print Assumptions C85_open.
Print Assumptions C85_steps.
Print Assumptions C85_resets.
Print Assumptions C85_after_close.
Print Assumptions C85_failed_reset_refuted.
Print Assumptions C85_types_refuted.

(** An episode cut by a reset, a reset that fails once, a finished one and one cut by closing. *)
Example C85_example : forall x y z w v, let cs := [CStep (Some (v, true)); CReset true; CStep (Some (x, false)); CStep (Some (y, false)); CReset false; CReset true; CStep (Some (z, true)); CStep (Some (v, true)); CReset true; CReset true; CStep None; CStep (Some (w, false)); CClose; CReset true] in
  let '(s, os) := monitor_run fresh cs in
  resets_repeated false (events cs os) = true /\ all_episodes (events cs os) = [[x; y]; [z]; [w]] /\ map fst (records s) = [2; 1; 1]%nat /\ types s = 4%nat.
Proof. intros. vm_compute. auto. Qed.
