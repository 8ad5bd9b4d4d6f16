(** Model of chainerrl/links/empirical_normalization.py.

    All array operations of the class are element-wise over the features, so
    one feature is modelled: a batch is the list of that feature's values.
    Numbers are exact reals; [(v + eps) ** -0.5] is [/ sqrt (v + eps)]
    (numpy's inf for v + eps = 0 is not modelled). *)
From Coq Require Import Reals.
From Verif Require Import Base.PyBase.
Set Implicit Arguments.
Local Open Scope R_scope.

(** empirical_normalization.py:17-33 — attributes. *)
Record norm := mk_norm {
  n_eps : R; n_until : option nat; n_clip : option R;
  n_mean : R; n_var : R; n_count : nat;
  n_cache : option R                         (* _cached_std_inverse *)
}.
Definition norm_init (eps : R) (until : option nat) (clip : option R) : norm :=
  mk_norm eps until clip 0 1 0 None.

(** [xp.mean] and [xp.var] over the batch axis. *)
Definition rsum (l : list R) : R := fold_right Rplus 0 l.
Definition np_mean (l : list R) : R := rsum l / INR (length l).
Definition np_var (l : list R) : R := rsum (map (fun x => (x - np_mean l) * (x - np_mean l)) l) / INR (length l).

(** empirical_normalization.py:44-49 [_std_inverse]: fills the cache. *)
Definition std_inverse (s : norm) : R * norm :=
  match n_cache s with
  | Some c => (c, s)
  | None => let c := / sqrt (n_var s + n_eps s) in
            (c, mk_norm (n_eps s) (n_until s) (n_clip s) (n_mean s) (n_var s) (n_count s) (Some c))
  end.

(** empirical_normalization.py:51-79 [experience]. *)
Definition experience (s : norm) (x : list R) : norm :=
  if match n_until s with Some u => (u <=? n_count s)%nat | None => false end then s
  else if (length x =? 0)%nat then s
  else
    let count := (n_count s + length x)%nat in
    let rate := INR (length x) / INR count in
    let mean_x := np_mean x in
    let var_x := np_var x in
    let delta_mean := mean_x - n_mean s in
    let mean := n_mean s + rate * delta_mean in
    let var := n_var s + rate * (var_x - n_var s + delta_mean * (mean_x - mean)) in
    mk_norm (n_eps s) (n_until s) (n_clip s) mean var count None.

Definition clip_to (c : option R) (x : R) : R :=
  match c with Some t => Rmin (Rmax x (- t)) t | None => x end.

(** empirical_normalization.py:81-103 [__call__].  Line 93 takes a broadcast
    view of [self._mean], which [experience] updates in place (line 72), so the
    mean subtracted on line 99 is the one after the update; the inverse standard
    deviation of line 94 is the cached array from before it. *)
Definition normalize (s : norm) (x : list R) (update : bool) : list R * norm :=
  let (std_inv, s1) := std_inverse s in
  let s2 := if update then experience s1 x else s1 in
  (map (fun v => clip_to (n_clip s) ((v - n_mean s2) * std_inv)) x, s2).

(** empirical_normalization.py:105-109 [inverse]. *)
Definition inverse (s : norm) (y : list R) : list R :=
  map (fun v => v * sqrt (n_var s + n_eps s) + n_mean s) y.

(** Deserialising overwrites the persistent values (lines 28-30) and nothing else. *)
Definition load_stats (s : norm) (mean var : R) (count : nat) : norm :=
  mk_norm (n_eps s) (n_until s) (n_clip s) mean var count (n_cache s).

(** Histories. *)
Inductive nop := NExperience (x : list R) | NCall (x : list R) (update : bool) | NInverse (y : list R).
Definition nstep (s : norm) (o : nop) : norm :=
  match o with
  | NExperience x => experience s x
  | NCall x u => snd (normalize s x u)
  | NInverse _ => s
  end.
Definition nrun (s : norm) (os : list nop) : norm := fold_left nstep os s.
