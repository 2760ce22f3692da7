(** Vocabulary for the supplies. *)
From Verif Require Import PyBase Solver_Model Supply_Model.

(** Requests with a supply current between 0 and [imax], time going forward by at
    most [dt] per request (from time [t]); a reset starts again at time 0. *)
Fixpoint admissible (imax dt t : R) (ops : list rc_op) : Prop :=
  match ops with
  | [] => True
  | RcReset :: ops' => admissible imax dt 0 ops'
  | RcGet t' i :: ops' => t <= t' <= t + dt /\ 0 <= i <= imax /\ admissible imax dt t' ops'
  end.
(** The same without limits on the currents' upper bound. *)
Definition within (r : R * R) (u : R) : Prop := fst r <= u <= snd r.
