(** Model of chainerrl/experiments/prepare_output_dir.py: processes that prepare output
    directories in one file system, one system call at a time.  A crash is a process that
    is never scheduled again.  Not modelled: symbolic links, permissions, deletion of files. *)
From Coq Require Import List Arith String Bool.
From Verif Require Import Base.PyBase.
Import ListNotations.
Set Implicit Arguments.

(** Paths are lists of names below a directory that always exists (the root, or the current
    directory for relative paths). *)
Definition path := list string.
Inductive entry := Dir | File (contents : string).
Definition fsys := path -> option entry.
Definition path_eq : forall p q : path, {p = q} + {p <> q} := list_eq_dec string_dec.
Definition put (f : fsys) (p : path) (e : entry) : fsys := fun q => if path_eq q p then Some e else f q.
Definition exists_ (f : fsys) (p : path) : bool := match f p with Some _ => true | None => false end.
Definition is_dir (f : fsys) (p : path) : bool := match f p with Some Dir => true | _ => false end.
Definition dirname (p : path) : path := removelast p.

(** The errors of the operating system that matter here, [FileExistsError],
    [FileNotFoundError], [NotADirectoryError], [IsADirectoryError]. *)
Inductive oserr := EExist | ENoEnt | ENotDir | EIsDir.
(** The contracts of [os.mkdir] and [open(..., 'w')]: creating a directory is atomic and
    fails if there is anything at that path. *)
Definition parent_error (f : fsys) (p : path) : option oserr :=
  match f (dirname p) with None => Some ENoEnt | Some (File _) => Some ENotDir | Some Dir => None end.
Definition mkdir (f : fsys) (p : path) : fsys + oserr :=
  if exists_ f p then inr EExist
  else match parent_error f p with Some e => inr e | None => inl (put f p Dir) end.
Definition open_w (f : fsys) (p : path) : fsys + oserr :=
  if is_dir f p then inr EIsDir
  else match parent_error f p with Some e => inr e | None => inl (put f p (File "")) end.

(** The arguments of one call and what it reads from its surroundings: the current time as a
    string, the names [tempfile.mkdtemp] tries, the results of [json.dumps], whether
    [git rev-parse] succeeds, and the outputs of the four git commands, which raise
    [CalledProcessError] if the command fails. *)
Record config := mk_config {
  user_dir : option path;
  time_str : string;
  temp_dir : path;
  temp_names : list string;
  args_json : res string;
  environ_json : res string;
  argv : list string;
  under_git : bool;
  git_head : res string; git_status : res string; git_log : res string; git_diff : res string
}.
(** prepare_output_dir.py:69-99: the files, in order. *)
Definition files (c : config) : list (string * res string) :=
  [("args.txt"%string, args_json c); ("environ.txt"%string, environ_json c); ("command.txt"%string, Ok (String.concat " " (argv c)))] ++
  if under_git c
  then [("git-head.txt"%string, git_head c); ("git-status.txt"%string, git_status c); ("git-log.txt"%string, git_log c); ("git-diff.txt"%string, git_diff c)]
  else [].

Inductive failure :=
| NotADirectory     (* prepare_output_dir.py:56-57, a RuntimeError *)
| Exists            (* prepare_output_dir.py:60, a RuntimeError *)
| OSErr (e : oserr)
| NoTempName
| ContentErr (e : exc).
(** Where a call is; each state but the last two makes one system call next. *)
Inductive state :=
| CheckUser                                     (* :54 os.path.exists *)
| CheckUserDir                                  (* :55 os.path.isdir *)
| CheckOut                                      (* :59 os.path.exists *)
| Down (p : path) (above : list path)           (* os.makedirs: does the parent exist? *)
| Up (p : path) (above : list path)             (* os.makedirs: create [p], then those above *)
| Temp (names : list string)                    (* :64 tempfile.mkdtemp *)
| Opening (out : path) (todo : list (string * res string))
| Writing (out : path) (name : string) (content : res string) (todo : list (string * res string))
| Done (out : path)
| Failed (e : failure).

Definition out_dir (u : path) (c : config) : path := u ++ [time_str c].
Definition start (c : config) : state := match user_dir c with Some _ => CheckUser | None => Temp (temp_names c) end.
Definition begin_files (c : config) (out : path) : state := Opening out (files c).

(** prepare_output_dir.py:52-101, one system call.  [os.makedirs(name)] looks whether the
    parent exists, creates it recursively if not, ignoring [FileExistsError] from that
    recursion, and then creates [name]. *)
Definition step (c : config) (f : fsys) (s : state) : fsys * state :=
  match s with
  | CheckUser =>
    match user_dir c with
    | Some u => (f, if exists_ f u then CheckUserDir else CheckOut)
    | None => (f, s)
    end
  | CheckUserDir =>
    match user_dir c with
    | Some u => (f, if is_dir f u then CheckOut else Failed NotADirectory)
    | None => (f, s)
    end
  | CheckOut =>
    match user_dir c with
    | Some u => (f, if exists_ f (out_dir u c) then Failed Exists else Down (out_dir u c) [])
    | None => (f, s)
    end
  | Down p above => (f, if exists_ f (dirname p) then Up p above else Down (dirname p) (p :: above))
  | Up p above =>
    match mkdir f p with
    | inl f' => (f', match above with [] => begin_files c p | q :: above => Up q above end)
    | inr EExist => (f, match above with [] => Failed (OSErr EExist) | q :: above => Up q above end)
    | inr e => (f, Failed (OSErr e))
    end
  | Temp [] => (f, Failed NoTempName)
  | Temp (n :: names) =>
    match mkdir f (temp_dir c ++ [n]) with
    | inl f' => (f', begin_files c (temp_dir c ++ [n]))
    | inr EExist => (f, Temp names)
    | inr e => (f, Failed (OSErr e))
    end
  | Opening out [] => (f, Done out)
  | Opening out ((name, content) :: todo) =>
    match open_w f (out ++ [name]) with
    | inl f' => (f', Writing out name content todo)
    | inr e => (f, Failed (OSErr e))
    end
  | Writing out name content todo =>
    match content with
    | Ok text => (put f (out ++ [name]) (File text), Opening out todo)
    | Raise e => (f, Failed (ContentErr e))
    end
  | Done _ | Failed _ => (f, s)
  end.

(** Several calls, in one or in several processes; the schedule says whose turn it is. *)
Record world := mk_world { disk : fsys; calls : list (config * state) }.
Definition turn (w : world) (i : nat) : world :=
  match nth_error (calls w) i with
  | Some (c, s) => let (f, s') := step c (disk w) s in mk_world f (upd (calls w) i (c, s'))
  | None => w
  end.
Definition run (w : world) (schedule : list nat) : world := fold_left turn schedule w.
Definition begin (f : fsys) (cs : list config) : world := mk_world f (map (fun c => (c, start c)) cs).
(** One call by itself, [n] system calls. *)
Fixpoint steps (c : config) (n : nat) (f : fsys) (s : state) : fsys * state :=
  match n with 0 => (f, s) | S n => let (f', s') := step c f s in steps c n f' s' end.
