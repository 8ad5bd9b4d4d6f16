(** Replaying episodes without ever reporting errors, as PCL does (chainerrl/agents/pcl.py:262-350 calls sample_episodes and never update_errors). *)
From Coq Require Import QArith.
From Verif Require Import Base.PyBase Model.Num Model.PrioritizedBuffer Model.ReplayBuffer Model.EpisodicReplayBuffer Spec.PrioritizedBufferSpec.
Set Implicit Arguments.
Local Open Scope nat_scope.

Definition reports_nothing {N T} (o : perb_op N T) : Prop := match o with EUpdate _ _ => False | _ => True end.

(** The priority of an episode: what default_priority_func gives, or 1. *)
Definition given {T} (dpf : option (list T -> Q)) (ep : list T) : Q := match dpf with Some f => f ep | None => 1%Q end.

(** A history of successful calls that reports nothing, each sample with possible random draws. *)
Inductive unfed {T} (dpf : option (list T -> Q)) (ur : Q) : perb QNum T -> list (perb_op QNum T) -> perb QNum T -> Prop :=
| unfed_none b : unfed dpf ur b [] b
| unfed_add b o b' os b'' : perb_step (N := QNum) dpf ur (fun es => es) b (EOp QNum o) = Ok b' -> unfed dpf ur b' os b'' -> unfed dpf ur b (EOp QNum o :: os) b''
| unfed_sample b n d b' os b'' : draws_ok (length (pb_data (pe_eps b))) n ur d ->
    perb_step (N := QNum) dpf ur (fun es => es) b (ESample n d) = Ok b' -> unfed dpf ur b' os b'' -> unfed dpf ur b (ESample n d :: os) b''.

(** The buffer holds its episodes with the priorities they were given, and samples by them. *)
Definition keeps {T} (dpf : option (list T -> Q)) (b : perb QNum T) : Prop :=
  priorities (pe_eps b) = map (fun ep => Some (given dpf ep)) (pb_data (pe_eps b)) /\
  weights (pe_eps b) = map (fun ep => Some (given dpf ep)) (pb_data (pe_eps b)).
