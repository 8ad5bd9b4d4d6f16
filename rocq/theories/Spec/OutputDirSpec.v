(** What makes a file system possible, and what a complete output directory contains. *)
From Coq Require Import List String.
From Verif Require Import Base.PyBase Model.OutputDir.
Import ListNotations.

(** Everything except the root is in a directory. *)
Definition proper (f : fsys) : Prop := f [] = Some Dir /\ forall p n, f (p ++ [n]) <> None -> f p = Some Dir.
(** The files of a call are there with their contents. *)
Definition complete (f : fsys) (out : path) (c : config) : Prop :=
  f out = Some Dir /\
  exists a e, args_json c = Ok a /\ environ_json c = Ok e /\
    f (out ++ ["args.txt"%string]) = Some (File a) /\ f (out ++ ["environ.txt"%string]) = Some (File e) /\
    f (out ++ ["command.txt"%string]) = Some (File (String.concat " " (argv c))) /\
    (under_git c = true -> exists h s l d, git_head c = Ok h /\ git_status c = Ok s /\ git_log c = Ok l /\ git_diff c = Ok d /\
       f (out ++ ["git-head.txt"%string]) = Some (File h) /\ f (out ++ ["git-status.txt"%string]) = Some (File s) /\
       f (out ++ ["git-log.txt"%string]) = Some (File l) /\ f (out ++ ["git-diff.txt"%string]) = Some (File d)).
(** [p] is [q] or below it. *)
Definition within (q p : path) : Prop := exists r, p = q ++ r.
(** Where a call may put its directory. *)
Definition expected_place (c : config) (out : path) : Prop :=
  match user_dir c with Some u => out = u ++ [time_str c] | None => exists n, In n (temp_names c) /\ out = temp_dir c ++ [n] end.
