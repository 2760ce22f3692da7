(** Vocabulary for limits. *)
From Verif Require Import PyBase PyDict Transform_Model Motor_Model MotorLimit_Model.

(** Currents inside the circle of radius [i]. *)
Definition in_circle (i d q : R) : Prop := d * d + q * q <= i * i.
(** [t] is the largest torque over a set of currents, and it is attained. *)
Definition is_max_torque (torque : list R -> res R) (allowed : list R -> Prop) (t : R) : Prop :=
  (exists x, allowed x /\ torque x = Ok t) /\ (forall x t', allowed x -> torque x = Ok t' -> t' <= t).
(** A motor with a dq current vector, the rest of the state arbitrary. *)
Definition dq_in_circle (n : nat) (i : R) (x : list R) : Prop := length x = n /\ in_circle i (nth 0 x 0) (nth 1 x 0).
(** Each current at most its limit in absolute value. *)
Definition in_box (lims x : list R) : Prop :=
  length x = length lims /\ forall k, (k < length lims)%nat -> Rabs (nth k x 0) <= nth k lims 0.
(** the entry was given with a non-zero value *)
Definition given (d : dict R) (k : string) (v : R) : Prop := dict_get k d = Some v /\ v <> 0.
Definition missing (d : dict R) (k : string) : Prop := forall v, ~ given d k v.
