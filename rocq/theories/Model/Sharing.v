(** Model of sharing parameters between processes: chainerrl/misc/async_.py:26-160,
    200-226, chainerrl/misc/namedpersistent.py and the way
    chainerrl/experiments/train_agent_async.py:111-121, 185-215 uses them.
    Memory is a collection of buffers: shared ones ([multiprocessing.RawArray]) seen by
    every process, and private ones of each process.  An array is a view of a whole
    buffer; of a dtype only the item size is kept, of a shape only the size.  Path strings
    ("/l1/W") are lists of names. *)
From Coq Require Import List Arith String Bool.
From Verif Require Import Base.PyBase.
Import ListNotations.
Set Implicit Arguments.

Definition path := list string.
Definition path_eq_dec : forall p q : path, {p = q} + {p <> q} := list_eq_dec string_dec.
Inductive loc := Priv (a : nat) | Shared (s : nat).
Record arr := mk_arr { a_loc : loc; a_item : nat; a_size : nat }.
Inductive kind := Param | Persistent.
Definition kind_eqb (a b : kind) : bool := match a, b with Param, Param => true | Persistent, Persistent => true | _, _ => false end.

Fixpoint assoc {X : Type} (n : string) (l : list (string * X)) : option X :=
  match l with [] => None | (m, x) :: l => if string_dec n m then Some x else assoc n l end.
Fixpoint put {X : Type} (n : string) (x : X) (l : list (string * X)) : list (string * X) :=
  match l with [] => [] | (m, y) :: l => if string_dec n m then (m, x) :: l else (m, y) :: put n x l end.
Fixpoint passoc {X : Type} (p : path) (l : list (path * X)) : option X :=
  match l with [] => None | (q, x) :: l => if path_eq_dec p q then Some x else passoc p l end.

Section Sharing.
  Variable V : Type.

  Record buffer := mk_buf { b_item : nat; b_data : list V }.
  Record mem := mk_mem { m_shared : list buffer; m_priv : list buffer }.
  (** A parameter's array, a persistent array, or a persistent scalar. *)
  Inductive value := VArr (a : arr) | VScalar (item : nat) (v : V).
  (** A chainer link: its own parameters and persistent values, and its children (a
      [ChainList] names them "0", "1", ...). *)
  Inductive link := Lk (slots : list (string * (kind * value))) (kids : list (string * link)).

  (** chainer's [namedparams] and namedpersistent.py:13-32. *)
  Fixpoint named (k : kind) (l : link) : list (path * value) :=
    match l with
    | Lk slots kids =>
      flat_map (fun s => if kind_eqb (fst (snd s)) k then [([fst s], snd (snd s))] else []) slots ++
      flat_map (fun c => map (fun pv => (fst c :: fst pv, snd pv)) (named k (snd c))) kids
    end.
  (** async_.py:28-55 [_set_persistent_values_recursively]: an attribute of this link, or
      descend into the named child.  Also used for [param.array = ...], the parameter
      being the object at that path. *)
  Fixpoint set_at (p : path) (v : value) (l : link) : res link :=
    match p, l with
    | [], _ => Raise AssertionError
    | n :: rest, Lk slots kids =>
      match rest with
      | [] => match assoc n slots with
              | Some (k, _) => Ok (Lk (put n (k, v) slots) kids)
              | None => Raise AssertionError
              end
      | _ :: _ => match assoc n kids with
                  | Some c => let! c' := set_at rest v c in Ok (Lk slots (put n c' kids))
                  | None => Raise AttributeError
                  end
      end
    end.

  Definition buf_at (m : mem) (a : loc) : option buffer :=
    match a with Priv i => nth_error (m_priv m) i | Shared i => nth_error (m_shared m) i end.
  Definition read (m : mem) (v : value) : list V :=
    match v with
    | VArr a => match buf_at m (a_loc a) with Some b => b_data b | None => [] end
    | VScalar _ x => [x]
    end.
  Definition item_of (v : value) : nat := match v with VArr a => a_item a | VScalar i _ => i end.
  Definition size_of (v : value) : nat := match v with VArr a => a_size a | VScalar _ _ => 1 end.

  (** async_.py:121-141: [mp.RawArray(typecode, values)], a new shared buffer with a copy
      of the values. *)
  Fixpoint extract_all (m : mem) (es : list (path * value)) : mem * list (path * nat) :=
    match es with
    | [] => (m, [])
    | (p, v) :: es =>
      let m1 := mk_mem (m_shared m ++ [mk_buf (item_of v) (read m v)]) (m_priv m) in
      let (m2, d) := extract_all m1 es in (m2, (p, List.length (m_shared m)) :: d)
    end.
  Definition extract_params (m : mem) (l : link) : mem * list (path * nat) := extract_all m (named Param l ++ named Persistent l).

  (** [np.frombuffer(shared, dtype).reshape(shape)]. *)
  Definition frombuffer (m : mem) (s item size : nat) : res arr :=
    match nth_error (m_shared m) s with
    | None => Raise TypeError
    | Some b =>
      let bytes := b_item b * List.length (b_data b) in
      if (bytes mod item =? 0) && (bytes / item =? size) then Ok (mk_arr (Shared s) item size) else Raise ValueError
    end.
  (** async_.py:66-76: the two loops of [set_shared_params]; [rem] is [remaining_keys]. *)
  Fixpoint set_all (m : mem) (d : list (path * nat)) (es : list (path * value)) (l : link) (rem : list path) : res (link * list path) :=
    match es with
    | [] => Ok (l, rem)
    | (p, v) :: es =>
      match passoc p d with
      | None => set_all m d es l rem
      | Some s =>
        let! a := frombuffer m s (item_of v) (size_of v) in
        let! l := set_at p (VArr a) l in
        set_all m d es l (remove path_eq_dec p rem)
      end
    end.
  Definition set_shared_params (m : mem) (l : link) (d : list (path * nat)) : res link :=
    let! (l1, r1) := set_all m d (named Param l) l (map fst d) in
    let! (l2, r2) := set_all m d (named Persistent l) l1 r1 in
    match r2 with [] => Ok l2 | _ :: _ => Raise AssertionError end.
  (** async_.py:144-147. *)
  Definition share_params (m : mem) (l : link) : res (mem * link * list (path * nat)) :=
    let (m', d) := extract_params m l in let! l' := set_shared_params m' l d in Ok (m', l', d).

  (** ** Optimizer states: async_.py:111-119, 150-166.  A state array is named by its
      parameter's path and its own name; the shared copy is always made of C floats,
      four bytes each. *)
  Fixpoint extract_states (m : mem) (es : list (path * arr)) : mem * list (path * nat) :=
    match es with
    | [] => (m, [])
    | (p, a) :: es =>
      let m1 := mk_mem (m_shared m ++ [mk_buf 4 (read m (VArr a))]) (m_priv m) in
      let (m2, d) := extract_states m1 es in (m2, (p, List.length (m_shared m)) :: d)
    end.
  Fixpoint set_shared_states (m : mem) (d : list (path * nat)) (es : list (path * arr)) : res (list (path * arr)) :=
    match es with
    | [] => Ok []
    | (p, a) :: es =>
      match passoc p d with
      | None => Raise KeyError
      | Some s =>
        let! a' := frombuffer m s (a_item a) (a_size a) in
        let! es' := set_shared_states m d es in Ok ((p, a') :: es')
      end
    end.
  Definition share_states (m : mem) (es : list (path * arr)) : res (mem * list (path * arr) * list (path * nat)) :=
    let (m', d) := extract_states m es in let! es' := set_shared_states m' d es in Ok (m', es', d).

  (** ** Processes.  After the fork every process has its own private buffers and the
      links that its variables refer to; the shared buffers are common. *)
  Record world := mk_world { w_shared : list buffer; w_priv : nat -> list buffer }.
  Definition mem_of (w : world) (q : nat) : mem := mk_mem (w_shared w) (w_priv w q).
  (** Lookup by path. *)
  Fixpoint get (p : path) (l : link) : option (kind * value) :=
    match p, l with
    | [], _ => None
    | n :: rest, Lk slots kids =>
      match rest with
      | [] => assoc n slots
      | _ :: _ => match assoc n kids with Some c => get rest c | None => None end
      end
    end.
  Definition read_at (m : mem) (l : link) (p : path) : list V := match get p l with Some (_, v) => read m v | None => [] end.
  Definition set_data (bs : list buffer) (i : nat) (x : list V) : list buffer :=
    match nth_error bs i with Some b => upd bs i (mk_buf (b_item b) x) | None => bs end.
  Definition write (w : world) (q : nat) (a : loc) (x : list V) : world :=
    match a with
    | Shared i => mk_world (set_data (w_shared w) i x) (w_priv w)
    | Priv i => mk_world (w_shared w) (fun r => if Nat.eqb r q then set_data (w_priv w q) i x else w_priv w r)
    end.
  (** One in-place write by a process: to the parameter with the [i]-th path, or to one of
      its private buffers; the new contents are any function of all the process sees.
      Writes to one array are atomic in this model. *)
  Inductive target := Global (i : nat) | Local (a : nat).
  Record op := mk_op { o_proc : nat; o_target : target; o_fun : list (list V) -> list (list V) -> list V }.
  Definition views (paths : list path) (links : nat -> link) (w : world) (q : nat) : list (list V) :=
    map (read_at (mem_of w q) (links q)) paths.
  Definition locals (w : world) (q : nat) : list (list V) := map b_data (w_priv w q).
  Definition step (paths : list path) (links : nat -> link) (w : world) (o : op) : world :=
    let q := o_proc o in
    let x := o_fun o (views paths links w q) (locals w q) in
    match o_target o with
    | Global i =>
      match nth_error paths i with
      | Some p => match get p (links q) with Some (_, VArr a) => write w q (a_loc a) x | _ => w end
      | None => w
      end
    | Local a => write w q (Priv a) x
    end.
  Definition run (paths : list path) (links : nat -> link) (w : world) (ops : list op) : world := fold_left (step paths links) ops w.
End Sharing.

(** ** Seeds: async_.py:163-178 ([run_async]).  Every child is a fork: it draws its seed
    from its own copy of the parent's generator. *)
Section Seeds.
  Variable rng : Type.
  Variable draw : rng -> nat * rng.
  Definition run_async_seeds (parent : rng) (n_process : nat) : list nat := map (fun _ => fst (draw parent)) (seq 0 n_process).
  (** train_agent_async.py:199-200: the run function then sets its process index as seed. *)
  Definition train_async_seeds (parent : rng) (n_process : nat) : list nat := map (fun process_idx => process_idx) (seq 0 n_process).
End Seeds.
