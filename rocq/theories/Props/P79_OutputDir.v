(** C79: output directories are exclusive, never overwrite anything, and are complete once
    returned, for any number of concurrent calls and any crashes. *)
From Coq Require Import List Arith String Bool Lia.
From Verif Require Import Base.PyBase Model.OutputDir Spec.OutputDirSpec Proofs.OutputDirProofs.
Import ListNotations.
Set Implicit Arguments.

(** Whatever was there before is untouched, whatever the calls, their interleaving, and
    where they stop. *)
Theorem C79_nothing_overwritten : forall f cs sched, proper f -> forall p, f p <> None -> disk (run (begin f cs) sched) p = f p.
Proof. exact old_kept. Qed.
(** Two calls never return the same directory, even if they run in the same microsecond. *)
Theorem C79_exclusive : forall f cs sched, proper f -> forall i j c c' o o', i <> j ->
  nth_error (calls (run (begin f cs) sched)) i = Some (c, Done o) -> nth_error (calls (run (begin f cs) sched)) j = Some (c', Done o') -> o <> o'.
Proof. exact exclusive. Qed.
(** A returned directory is new, is where it should be, and contains all the documented files
    with their full contents; other calls do not disturb it later. *)
Theorem C79_complete : forall f cs sched, proper f -> forall i c o, nth_error (calls (run (begin f cs) sched)) i = Some (c, Done o) ->
  f o = None /\ expected_place c o /\ complete (disk (run (begin f cs) sched)) o c.
Proof. exact done_ok. Qed.
(** Nothing else changes: only the directories, the directories above them, and the files
    directly in them. *)
Theorem C79_nothing_else : forall f cs sched, proper f -> forall p, disk (run (begin f cs) sched) p <> f p ->
  exists c o, In c cs /\ expected_place c o /\ (within p o \/ exists n, p = o ++ [n]).
Proof. exact only_there. Qed.
(** A call by itself succeeds if its directory does not exist yet, nothing above it is a
    plain file, and all the contents can be computed. *)
Theorem C79_succeeds : forall c f u, user_dir c = Some u -> proper f -> f (u ++ [time_str c]) = None -> (forall q t, within q u -> f q <> Some (File t)) ->
  (forall n x, In (n, x) (files c) -> exists t, x = Ok t) -> exists n, calls (run (begin f [c]) (repeat 0 n)) = [(c, Done (u ++ [time_str c]))].
Proof. exact succeeds_run. Qed.
(** If the directory exists, for example because an earlier attempt crashed, or if the given
    path is a file, the call fails without touching anything. *)
Theorem C79_refuses : forall c f u, user_dir c = Some u -> proper f -> (f (u ++ [time_str c]) <> None \/ exists t, f u = Some (File t)) ->
  exists n e, run (begin f [c]) (repeat 0 n) = mk_world f [(c, Failed e)] /\ (e = Exists \/ e = NotADirectory).
Proof. exact refuses_run. Qed.

(** Two calls race for the same new directory below a new directory: both see that nothing
    exists, one of them gets it. *)
Definition C79_config (a : string) : config :=
  mk_config (Some ["results"%string]) "T1" [] [] (Ok a) (Ok "env"%string) ["train.py"%string; "--seed=1"%string] false (Ok ""%string) (Ok ""%string) (Ok ""%string) (Ok ""%string).
Definition C79_disk : fsys := fun p => match p with [] => Some Dir | ["notes.txt"%string] => Some (File "keep") | _ => None end.
Definition C79_run : world := run (begin C79_disk [C79_config "A"; C79_config "B"]) ([0; 1; 0; 1; 0; 1; 0; 1; 0; 1] ++ repeat 1 10 ++ repeat 0 10).
Example C79_example : proper C79_disk /\ map snd (calls C79_run) = [Failed (OSErr EExist); Done ["results"%string; "T1"%string]] /\
  disk C79_run ["results"; "T1"; "args.txt"]%string = Some (File "B") /\ disk C79_run ["results"; "T1"; "command.txt"]%string = Some (File "train.py --seed=1") /\
  disk C79_run ["notes.txt"%string] = Some (File "keep").
Proof.
  split; [|vm_compute; repeat split; reflexivity]. split; [reflexivity|]. intros p n H. destruct p as [|a [|b p]]; [reflexivity| |]; cbn in H;
  repeat match type of H with context [match ?x with _ => _ end] => destruct x end; congruence.
Qed.
Example C79_succeeds_example : C79_disk ["results"; "T1"]%string = None /\ (forall q t, within q ["results"%string] -> C79_disk q <> Some (File t)) /\
  calls (run (begin C79_disk [C79_config "A"]) (repeat 0 13)) = [(C79_config "A", Done ["results"; "T1"]%string)].
Proof.
  split; [reflexivity|]. split; [|reflexivity]. intros q t [r Q]. destruct q as [|a [|b q]]; cbn in Q; [cbn; discriminate| |discriminate].
  injection Q as <- _. cbn. discriminate.
Qed.

(** A call that fails while writing leaves the new directory behind, with an empty file:
    the directory is not all or nothing. *)
Theorem C79_all_or_nothing_refuted : forall c f u good n e rest, user_dir c = Some u -> proper f -> f (u ++ [time_str c]) = None -> (forall q t, within q u -> f q <> Some (File t)) ->
  files c = good ++ (n, Raise e) :: rest -> (forall m x, In (m, x) good -> exists t, x = Ok t) ->
  exists k, let w := run (begin f [c]) (repeat 0 k) in calls w = [(c, Failed (ContentErr e))] /\ disk w (u ++ [time_str c]) = Some Dir /\ disk w ((u ++ [time_str c]) ++ [n]) = Some (File "").
Proof. exact leftover_run. Qed.
(** In a git repository without commits, [git rev-parse] succeeds and [git rev-parse HEAD]
    does not, so every call fails, although it could save everything else. *)
Theorem C79_fresh_repository_refuted : forall c f u e a v, user_dir c = Some u -> proper f -> f (u ++ [time_str c]) = None -> (forall q t, within q u -> f q <> Some (File t)) ->
  args_json c = Ok a -> environ_json c = Ok v -> under_git c = true -> git_head c = Raise e ->
  exists k, calls (run (begin f [c]) (repeat 0 k)) = [(c, Failed (ContentErr e))].
Proof. exact fresh_repo. Qed.
(** The saved command does not determine the arguments. *)
Theorem C79_command_refuted : exists c c', argv c <> argv c' /\ files c = files c'.
Proof.
  exists (mk_config None "" [] [] (Ok ""%string) (Ok ""%string) ["a b"%string] false (Ok ""%string) (Ok ""%string) (Ok ""%string) (Ok ""%string)),
         (mk_config None "" [] [] (Ok ""%string) (Ok ""%string) ["a"%string; "b"%string] false (Ok ""%string) (Ok ""%string) (Ok ""%string) (Ok ""%string)).
  split; [discriminate|reflexivity].
Qed.

Print Assumptions C79_nothing_overwritten.
Print Assumptions C79_exclusive.
Print Assumptions C79_complete.
Print Assumptions C79_nothing_else.
Print Assumptions C79_succeeds.
Print Assumptions C79_refuses.
Print Assumptions C79_all_or_nothing_refuted.
Print Assumptions C79_fresh_repository_refuted.
Print Assumptions C79_command_refuted.
