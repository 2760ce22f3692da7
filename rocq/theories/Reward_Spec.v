(** Specification of the weighted sum of errors (class documentation,
    weighted_sum_of_errors.py 9-45). *)
From Verif Require Import PyDict Utils_Model Reward_Model.

(** Weights, powers, state lengths, state and reference of one step. *)
Record situation := {
  si_w : list R; si_n : list R; si_len : list R; si_state : list R; si_ref : list R
}.
(** All vectors have [N] entries, weights are non-negative, powers positive,
    state lengths positive, and every state and reference entry lies in the
    state space, i.e. their distance is at most the state length. *)
Definition admissible (N : nat) (s : situation) : Prop :=
  length (si_w s) = N /\ length (si_n s) = N /\ length (si_len s) = N /\
  length (si_state s) = N /\ length (si_ref s) = N /\
  (forall x, In x (si_w s) -> 0 <= x) /\
  (forall x, In x (si_n s) -> 0 < x) /\
  (forall i l x r, nth_error (si_len s) i = Some l -> nth_error (si_state s) i = Some x ->
     nth_error (si_ref s) i = Some r -> 0 < l /\ Rabs (x - r) <= l).
(** The weighted error vanishes: every state with a positive weight is on its
    reference. *)
Definition no_weighted_error (s : situation) : Prop :=
  forall i w x r, nth_error (si_w s) i = Some w -> nth_error (si_state s) i = Some x ->
    nth_error (si_ref s) i = Some r -> w = 0 \/ x = r.

(** The function object is configured with these vectors. *)
Definition configured (f : wse) (s : situation) (b v : R) : Prop :=
  wse_n f = InArray (si_n s) /\ wse_weights f = Some (InArray (si_w s)) /\
  wse_length f = si_len s /\ wse_bias f = BiasNum b /\ wse_violation f = Some v.
