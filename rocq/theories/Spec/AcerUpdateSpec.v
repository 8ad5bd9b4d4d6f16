(** What replaying one's own experience should amount to. *)
From Coq Require Import Reals List.
From Verif Require Import Base.PyBase Model.Acer Model.AcerUpdate.
Import ListNotations.
Local Open Scope R_scope.

(** The same step, as if the behaviour had been recorded: it was the policy itself. *)
Definition recorded (s : hist) : hist := mk_hist (s_out s) (s_avg s) (Some (o_pi (s_out s))) (s_action s) (s_reward s).
(** The actions that were taken had positive probability. *)
Definition possible (s : hist) : Prop := 0 < nth (s_action s) (o_pi (s_out s)) 0.
(** Importance weights are not truncated, or not below one. *)
Definition mild (c : acer_conf) : Prop := match c_truncation c with None => True | Some k => 1 <= k end.

(** A recurrent model with one action that counts its calls and gives the count as its value. *)
Definition counter (h : nat) (_ : unit) : out * nat := (mk_out [1] (fun _ => [0]) (fun _ => [INR h]) (fun _ => INR h) (fun _ => 0), S h).
Definition plain_conf : acer_conf := mk_acer_conf (1 / 2) 0 2 3 false (Some 10) false false.

(** The numbers of a step of a history that returns are made of. *)
Definition numbers (s : hist) (x : hstep) : Prop :=
  rho_of s = Ok (h_rho x) /\ h_r x = s_reward s /\ h_v x = o_v (s_out s) 0 /\ h_q x = nth (s_action s) (o_q (s_out s) 0) 0.
Definition total (l : list R) : R := fold_right Rplus 0 l.

(** One step of a fair choice between two actions of value 0, rewarded with 1. *)
Definition fair_step : hist := let o := mk_out [1 / 2; 1 / 2] (fun _ => [-1; -1]) (fun _ => [0; 0]) (fun _ => 0) (fun _ => 0) in mk_hist o o None 0 1.
Definition strict_conf : acer_conf := mk_acer_conf 1 0 1 0 false (Some (1 / 2)) false false.
