(** Model of chainerrl/experiments/train_agent_async.py: train_loop (10-109) run by
    N processes (train_agent_async, 124-245).

    The processes are interleaved: a schedule is a list of (process, answer) pairs;
    each entry lets that process make its next atomic action, [answer] being what
    the environment, agent, hook, evaluator or file system answers to it, or an
    exception ([RExc]).  The atomic actions are the calls made, the three blocks
    under a lock (44-46, 70-73, 78-80), the unlocked reads of training_done (53 and
    82) together with the tests they are in, and the final saves. An exception
    inside one of the locked blocks is not modelled (it can come just before or
    just after).  Left out: logging, profiling, random seeds, shared parameters,
    local_t and episode_r (only logged). *)
From Coq Require Import QArith.
From Verif Require Import Base.PyBase Model.TrainAgent.
Set Implicit Arguments.
Local Open Scope nat_scope.

Section Async.
  Context {Obs Act Rw : Type}.
  Variable rzero : Rw.

  (** What env.step answers: obs, r, done, info.get('needs_reset', False). *)
  Definition xans := (Obs * Rw * bool * bool)%type.
  Definition x_obs (x : xans) : Obs := fst (fst (fst x)).
  Definition x_rew (x : xans) : Rw := snd (fst (fst x)).
  Definition x_done (x : xans) : bool := snd (fst x).
  Definition x_needs (x : xans) : bool := snd x.

  Inductive asave := AFinish | AExcept | ASuccess.

  (** The events of one process. *)
  Inductive aev :=
  | AReset (o : Obs)
  | AAct (o : Obs) (r : Rw) (a : Act)              (* agent.act_and_train *)
  | AStep (a : Act) (x : xans)
  | ACount (v : Z)                                 (* counter incremented to v *)
  | AHook (k : nat) (v : Z)
  | AStop (o : Obs) (r : Rw) (d : bool)            (* agent.stop_episode_and_train *)
  | AEval (v : Z) (episodes : nat) (s : option Q)  (* evaluate_if_necessary *)
  | AEpisode (n : nat)                             (* episodes_counter incremented to n *)
  | ASave (s : asave) (v : Z)
  | AClose.                                        (* env.close() *)

  Inductive aans := RObs (o : Obs) | RAct (a : Act) | RStep (x : xans) | ROk | RScore (s : option Q) | RExc.

  Record aconfig := mk_aconfig {
    ac_steps : Z; ac_offset : Z; ac_maxlen : option Z; ac_hooks : nat; ac_eval : bool; ac_success : option Q }.

  (** The next action of a process. *)
  Inductive apc :=
  | PReset                        (* 27 and 88 *)
  | PAct (o : Obs) (r : Rw)       (* 36 *)
  | PStep (a : Act)               (* 38 *)
  | PCount (x : xans)             (* 44-46 *)
  | PHook (x : xans) (k : nat)    (* 48-49 for hook k; 51-53 when all are called *)
  | PStop (x : xans)              (* 54 *)
  | PEval                         (* 63-69 *)
  | PSetDone                      (* 70-73 *)
  | PEpisode                      (* 78-80 *)
  | PAgain                        (* 82 *)
  | PFinish                       (* 99-103 *)
  | PSuccess                      (* 105-109 *)
  | PClose                        (* 239-241 *)
  | PExit.

  (** Running; in the except clause; ended by an exception, with the model saved or not. *)
  Inductive astatus := Live | Failing | Dead (saved : bool).

  (** One process: next action, global_t, global_episodes, episode_len, successful. *)
  Record proc := mk_proc { w_pc : apc; w_gt : Z; w_ge : nat; w_len : Z; w_succ : bool; w_st : astatus }.
  Definition goto (pc : apc) (w : proc) : proc := mk_proc pc (w_gt w) (w_ge w) (w_len w) (w_succ w) (w_st w).
  Definition with_st (st : astatus) (w : proc) : proc := mk_proc (w_pc w) (w_gt w) (w_ge w) (w_len w) (w_succ w) st.

  (** The shared values counter, episodes_counter and training_done. *)
  Record shared := mk_shared { sh_counter : Z; sh_episodes : nat; sh_done : bool }.

  Variable c : aconfig.

  (** Lines 67-69: the score is successful. *)
  Definition good_score (s : option Q) : bool :=
    match s, ac_success c with Some s, Some q => Qle_bool q s | _, _ => false end.

  (** The next action of a running process; [None]: the answer does not fit. *)
  Definition live_step (sh : shared) (w : proc) (r : aans) : option (proc * shared * list aev) :=
    match w_pc w, r with
    | PReset, RObs o => Some (mk_proc (PAct o rzero) (w_gt w) (w_ge w) 0 (w_succ w) Live, sh, [AReset o])
    | PAct o rw, RAct a => Some (goto (PStep a) w, sh, [AAct o rw a])
    | PStep a, RStep x => Some (mk_proc (PCount x) (w_gt w) (w_ge w) (w_len w + 1) (w_succ w) Live, sh, [AStep a x])
    | PCount x, ROk =>
        let v := (sh_counter sh + 1)%Z in
        Some (mk_proc (PHook x 0) v (w_ge w) (w_len w) (w_succ w) Live, mk_shared v (sh_episodes sh) (sh_done sh), [ACount v])
    | PHook x k, ROk =>
        if k <? ac_hooks c then Some (goto (PHook x (S k)) w, sh, [AHook k (w_gt w)])
        else let reset := eqb_opt (w_len w) (ac_maxlen c) || x_needs x in
             if x_done x || reset || (ac_steps c <=? w_gt w)%Z || sh_done sh
             then Some (goto (PStop x) w, sh, [])
             else Some (goto (PAct (x_obs x) (x_rew x)) w, sh, [])
    | PStop x, ROk => Some (goto (if ac_eval c then PEval else PEpisode) w, sh, [AStop (x_obs x) (x_rew x) (x_done x)])
    | PEval, RScore s => Some (goto (if good_score s then PSetDone else PEpisode) w, sh, [AEval (w_gt w) (w_ge w) s])
    | PSetDone, ROk =>
        Some (mk_proc PFinish (w_gt w) (w_ge w) (w_len w) (if sh_done sh then w_succ w else true) Live,
              mk_shared (sh_counter sh) (sh_episodes sh) true, [])
    | PEpisode, ROk =>
        let n := S (sh_episodes sh) in
        Some (mk_proc PAgain (w_gt w) n (w_len w) (w_succ w) Live, mk_shared (sh_counter sh) n (sh_done sh), [AEpisode n])
    | PAgain, ROk => Some (goto (if (ac_steps c <=? w_gt w)%Z || sh_done sh then PFinish else PReset) w, sh, [])
    | PFinish, ROk => Some (goto PSuccess w, sh, if (w_gt w =? ac_steps c)%Z then [ASave AFinish (ac_steps c)] else [])
    | PSuccess, ROk => Some (goto PClose w, sh, if w_succ w then [ASave ASuccess (w_gt w)] else [])
    | PClose, ROk => Some (goto PExit w, sh, [AClose])
    | _, _ => None
    end.

  (** Is the action under the try of lines 21-89? *)
  Definition in_try (pc : apc) : bool := match pc with PFinish | PSuccess | PClose | PExit => false | _ => true end.

  (** One action of process [i]; 91-97 is the except clause. *)
  Definition proc_step (i : nat) (sh : shared) (w : proc) (r : aans) : option (proc * shared * list aev) :=
    match w_st w, r with
    | Live, RExc => match w_pc w with
                    | PExit => None
                    | pc => Some (with_st (if in_try pc then Failing else Dead false) w, sh, [])
                    end
    | Live, _ => live_step sh w r
    | Failing, ROk => if Nat.eqb i 0 then Some (with_st (Dead true) w, sh, [ASave AExcept (w_gt w)])
                      else Some (with_st (Dead false) w, sh, [])
    | Failing, RExc => Some (with_st (Dead false) w, sh, [])
    | _, _ => None
    end.

  Record astate := mk_astate { as_shared : shared; as_procs : list proc; as_log : list (nat * aev) }.

  Definition astep (s : astate) (x : nat * aans) : option astate :=
    let (i, r) := x in
    match nth_error (as_procs s) i with
    | None => None
    | Some w => match proc_step i (as_shared s) w r with
                | None => None
                | Some (w', sh', es) => Some (mk_astate sh' (upd (as_procs s) i w') (as_log s ++ map (pair i) es))
                end
    end.

  Fixpoint arun (s : astate) (sched : list (nat * aans)) : option astate :=
    match sched with
    | [] => Some s
    | x :: sched => match astep s x with None => None | Some s => arun s sched end
    end.

  (** train_agent_async.py:176-178 and 23-31.  The counter starts from 0: the
      offset is only passed on to the evaluator. *)
  Definition proc0 : proc := mk_proc PReset 0 0 0 false Live.
  Definition astate0 (n : nat) : astate := mk_astate (mk_shared 0 0 false) (repeat proc0 n) [].
End Async.
