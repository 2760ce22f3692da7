(** Vocabulary for the energy balance of a whole drive: supply, converter, motor and
    mechanics together. *)
From Verif Require Import PyBase Conv_Spec Solver_Model Motor_Spec Loads_Model PhysSys_Model.

(** The trajectory [y] obeys the system equation [f] with the parameters [q] at [t]. *)
Definition obeys {U} (n : nat) (f : rhs U) (q : U) (y : R -> list R) (t : R) : Prop :=
  exists d, f q t (y t) = Ok d /\ length d = n /\
    forall k, (k < n)%nat -> derivable_pt_lim (fun s => nth k (y s) 0) t (nth k d 0).

(** A drive with a polynomial static load: along every trajectory, for all [nu]
    phase voltages, the power that the phase voltages and the currents shown to the
    converter carry is what the ohmic losses, the friction and the growth of magnetic
    and kinetic energy need.  [view], [cur] and [volt] are what the system does between
    ODE state, converter and ODE parameters. *)
Definition drive_balance {U V} (p : poly) (mo : motor U) (nu : nat) (view : list R -> res V) (cur : V -> list R)
    (volt : V -> list R -> res U) (energy loss : list R -> R) : Prop :=
  forall y u t v q, (forall s, length (y s) = S (mo_n mo)) -> length u = nu ->
  view (y t) = Ok v -> volt v u = Ok q -> obeys (S (mo_n mo)) (system_equation (poly_load p) mo) q y t ->
  length (cur v) = nu /\
  derivable_pt_lim (fun s => energy (tl (y s)) + po_jtotal p / 2 * (ix (y s) 0 * ix (y s) 0)) t
    (power u (cur v) - loss (tl (y t)) - static_load p (ix (y t) 0) * ix (y t) 0).
