(** Model of chainerrl/misc/pretrained_models.py: the download cache shared by any number of
    processes.  A system is the disk, the two lock files and the position of every process in the
    code; an event lets one process make one step, fail or die.  A model to download is a key
    (algorithm, environment, type); [hash] is the md5 of its url and [served] the zip file at that
    url: its entries, names with contents.  File locks (filelock.FileLock) are released by the
    operating system when their process dies. *)
From Coq Require Import List Arith Bool String.
From Verif Require Import Base.PyBase.
Import ListNotations.
Open Scope string_scope.

(** pretrained_models.py:20-30. *)
Definition pretrained : list (string * list string) :=
  [("DQN", ["best"; "final"]); ("IQN", ["best"; "final"]); ("Rainbow", ["best"; "final"]); ("A3C", ["final"]);
   ("DDPG", ["best"; "final"]); ("TRPO", ["best"; "final"]); ("PPO", ["final"]); ("TD3", ["best"; "final"]); ("SAC", ["best"; "final"])].
Fixpoint table_of (alg : string) (t : list (string * list string)) : option (list string) :=
  match t with [] => None | (a, l) :: t => if String.eqb alg a then Some l else table_of alg t end.
(** env.replace(old, ""): the non-overlapping occurrences from the left; [fuel]: the length of the string. *)
Fixpoint drop_prefix (p s : string) : option string :=
  match p, s with
  | EmptyString, _ => Some s
  | String a p, String b s => if Ascii.eqb a b then drop_prefix p s else None
  | _, _ => None
  end.
Fixpoint remove_all (fuel : nat) (p s : string) : string :=
  match fuel with
  | O => s
  | S fuel => match drop_prefix p s with
              | Some s' => remove_all fuel p s'
              | None => match s with EmptyString => EmptyString | String a s => String a (remove_all fuel p s) end
              end
  end.
(** pretrained_models.py:133-152, download_model up to the download: the key it asks for. *)
Definition download_model_key (alg env model_type : string) : res (string * string * string) :=
  match table_of alg pretrained with
  | None => Raise AssertionError
  | Some types => assert! existsb (String.eqb model_type) types in Ok (alg, remove_all (String.length env) "NoFrameskip-v4" env, model_type)
  end.
(** pretrained_models.py:133: model_type="best". *)
Definition download_model_default (alg env : string) : res (string * string * string) := download_model_key alg env "best".

Local Open Scope nat_scope.
Section System.
  Context {K : Type}.
  Variable Keq : forall a b : K, {a = b} + {a <> b}.
  Variable hash : K -> nat.
  Variable served : K -> list (nat * nat).

  (** Where a process is; [true] for download_and_store_model, [false] for a direct call of cached_download. *)
  Inductive pc :=
  | Idle
  | WantModels (k : K)                       (* :115 acquiring models.lock *)
  | Check (k : K)                            (* :123 os.path.exists(path) *)
  | WantDl (b : bool) (k : K)                (* :81 acquiring _dl_lock *)
  | CheckCache (b : bool) (k : K)            (* :82 *)
  | Mkdtemp (b : bool) (k : K)               (* :85 *)
  | Fetching (b : bool) (k : K)              (* :91 urlretrieve *)
  | WantMove (b : bool) (k : K)              (* :92 *)
  | Moving (b : bool) (k : K)                (* :93 *)
  | Cleanup (b : bool) (k : K)               (* :95, rmtree *)
  | Failing (b : bool) (k : K)               (* :95, rmtree, then the exception goes on *)
  | Renaming (k : K)                         (* :127 os.rename *)
  | Extracting (k : K) (l : list (nat * nat)) (* :128-129, entries left *)
  | Leaving (k : K) (cached : bool)          (* :130, releasing models.lock *)
  | Returned (k : K) (cached : bool)
  | GotPath (k : K)                          (* cached_download returned *)
  | Raised (k : K).

  Record sys := mk_sys {
    models_lock : option nat; dl_lock : option nat;
    cache : nat -> option (list (nat * nat));   (* _dl_cache/<md5> *)
    store : K -> option (list (nat * nat));     (* models/<alg>/<env>/<type>.zip *)
    files : K -> nat -> option nat;             (* what is under models/<alg>/<env>/<type>/ *)
    temps : nat -> nat;                         (* temporary directories made by a process *)
    pcs : nat -> pc;
    downloads : list K }.
  Definition fresh_disk : sys := mk_sys None None (fun _ => None) (fun _ => None) (fun _ _ => None) (fun _ => 0) (fun _ => Idle) [].
  Definition at_pc (s : sys) (p : nat) (c : pc) : sys :=
    mk_sys (models_lock s) (dl_lock s) (cache s) (store s) (files s) (temps s) (fun q => if q =? p then c else pcs s q) (downloads s).
  Definition with_models (s : sys) (o : option nat) : sys := mk_sys o (dl_lock s) (cache s) (store s) (files s) (temps s) (pcs s) (downloads s).
  Definition with_dl (s : sys) (o : option nat) : sys := mk_sys (models_lock s) o (cache s) (store s) (files s) (temps s) (pcs s) (downloads s).
  Definition with_cache (s : sys) (h : nat) (z : option (list (nat * nat))) : sys :=
    mk_sys (models_lock s) (dl_lock s) (fun h' => if h' =? h then z else cache s h') (store s) (files s) (temps s) (pcs s) (downloads s).
  Definition with_store (s : sys) (k : K) (z : list (nat * nat)) : sys :=
    mk_sys (models_lock s) (dl_lock s) (cache s) (fun k' => if Keq k' k then Some z else store s k') (files s) (temps s) (pcs s) (downloads s).
  Definition with_file (s : sys) (k : K) (n d : nat) : sys :=
    mk_sys (models_lock s) (dl_lock s) (cache s) (store s) (fun k' n' => if Keq k' k then if n' =? n then Some d else files s k' n' else files s k' n') (temps s) (pcs s) (downloads s).
  Definition with_temps (s : sys) (p n : nat) : sys :=
    mk_sys (models_lock s) (dl_lock s) (cache s) (store s) (files s) (fun q => if q =? p then n else temps s q) (pcs s) (downloads s).
  Definition with_download (s : sys) (k : K) : sys := mk_sys (models_lock s) (dl_lock s) (cache s) (store s) (files s) (temps s) (pcs s) (k :: downloads s).

  (** What follows cached_download: os.rename, or the end. *)
  Definition after_download (b : bool) (k : K) : pc := if b then Renaming k else GotPath k.
  (** One step of process [p] (pretrained_models.py:56-130); a process that waits for a lock does not move. *)
  Definition step (s : sys) (p : nat) : sys :=
    match pcs s p with
    | WantModels k => match models_lock s with None => at_pc (with_models s (Some p)) p (Check k) | Some _ => s end
    | Check k => match store s k with Some _ => at_pc s p (Leaving k true) | None => at_pc s p (WantDl true k) end
    | WantDl b k => match dl_lock s with None => at_pc (with_dl s (Some p)) p (CheckCache b k) | Some _ => s end
    | CheckCache b k => at_pc (with_dl s None) p match cache s (hash k) with Some _ => after_download b k | None => Mkdtemp b k end
    | Mkdtemp b k => at_pc (with_temps s p (S (temps s p))) p (Fetching b k)
    | Fetching b k => at_pc (with_download s k) p (WantMove b k)
    | WantMove b k => match dl_lock s with None => at_pc (with_dl s (Some p)) p (Moving b k) | Some _ => s end
    | Moving b k => at_pc (with_dl (with_cache s (hash k) (Some (served k))) None) p (Cleanup b k)
    | Cleanup b k => at_pc (with_temps s p (temps s p - 1)) p (after_download b k)
    | Failing b k => at_pc (with_temps (if b then with_models s None else s) p (temps s p - 1)) p (Raised k)
    | Renaming k => match cache s (hash k) with
                    | None => at_pc (with_models s None) p (Raised k)
                    | Some z => at_pc (with_store (with_cache s (hash k) None) k z) p (Extracting k z)
                    end
    | Extracting k [] => at_pc s p (Leaving k false)
    | Extracting k ((n, d) :: l) => at_pc (with_file s k n d) p (Extracting k l)
    | Leaving k c => at_pc (with_models s None) p (Returned k c)
    | Idle | Returned _ _ | GotPath _ | Raised _ => s
    end.
  (** An exception where one is to be expected: the download fails or is too short (:91), or the
      zip file cannot be extracted (:128-129; not a zip file, disk full). *)
  Definition fail (s : sys) (p : nat) : sys :=
    match pcs s p with
    | Fetching b k => at_pc s p (Failing b k)
    | Extracting k _ => at_pc (with_models s None) p (Raised k)
    | _ => s
    end.
  (** The process dies (or the machine): its locks are released, the disk stays as it is. *)
  Definition release (p : nat) (o : option nat) : option nat := match o with Some q => if q =? p then None else o | None => None end.
  Definition crash (s : sys) (p : nat) : sys := at_pc (with_dl (with_models s (release p (models_lock s))) (release p (dl_lock s))) p Idle.
  Definition resting (c : pc) : bool := match c with Idle | Returned _ _ | GotPath _ | Raised _ => true | _ => false end.

  (** Calls come from processes that are not in the middle of another one. *)
  Inductive event := Call (p : nat) (k : K) | CallCached (p : nat) (k : K) | Step (p : nat) | Fail (p : nat) | Crash (p : nat).
  Definition exec (s : sys) (e : event) : sys :=
    match e with
    | Call p k => if resting (pcs s p) then at_pc s p (WantModels k) else s
    | CallCached p k => if resting (pcs s p) then at_pc s p (WantDl false k) else s
    | Step p => step s p
    | Fail p => fail s p
    | Crash p => crash s p
    end.
  Definition run (s : sys) (es : list event) : sys := fold_left exec es s.
End System.
Arguments pc : clear implicits.
Arguments sys : clear implicits.
Arguments event : clear implicits.
