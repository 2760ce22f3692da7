(** A current control loop: the controller of gem_controllers and a motor equation. *)
From Verif Require Import PyBase PyDict Transform_Model Motor_Model Wrap_Model Ctl_Model Ctl_Model2 Ctl_Spec.
Local Open Scope string_scope. Local Open Scope list_scope. Local Open Scope R_scope.

(** The value of the state [name] in the state array [s]. *)
Definition observed (e : cenv) (s : list R) (name : string) (v : R) : Prop := exists j, str_index name (ce_names e) = Ok j /\ item s j = Ok v.
(** The voltage is one the converter can put out: inside the bounds of the observation of "u" times its limit. *)
Definition in_voltage_range (e : cenv) (u : R) : Prop := forall j, str_index "u" (ce_names e) = Ok j -> comp j (ce_low e) * comp j (ce_limits e) <= u <= comp j (ce_high e) * comp j (ce_limits e).
(** The first [n] periods of a closed loop in denormalised quantities: in period [k] the controller [cs k] sees the
    state [s k], with the current [i k] under the name [cur], and puts out the voltage [u k], which is in the range of
    the converter and applied for the whole period; the motor is integrated with one Euler step (solvers.py,
    EulerSolver with nsteps=1).  [ode k x v] is the derivative of the current [x] in period [k]. *)
Record loop_until (n : nat) (e : cenv) (cur : string) (r : R) (ode : nat -> R -> list R -> res R) (c0 : cctl) (cs : nat -> cctl) (s : nat -> list R) (i u : nat -> R) : Prop := {
  cl_start : cs O = c0;
  cl_control : forall k, (k < n)%nat -> current_control (cs k) (s k) [r] = (cs (Datatypes.S k), Ok [u k]);
  cl_range : forall k, (k < n)%nat -> in_voltage_range e (u k);
  cl_current : forall k, (k < n)%nat -> observed e (s k) cur (i k);
  cl_motor : forall k, (k < n)%nat -> exists d, ode k (i k) [u k] = Ok d /\ i (Datatypes.S k) = i k + ce_tau e * d }.
Definition closed_loop e cur r ode c0 cs s i u : Prop := forall n, loop_until n e cur r ode c0 cs s i u.
(** The motor equations of the current: series motor with speed [w k]; shunt motor (armature current) with speed
    [w k] and excitation current [x k]; permanently excited motor. *)
Definition series_current (m : dc_par) (w : nat -> R) (k : nat) (i : R) (u : list R) : res R := do d <- series_ode m [i] u (w k); item d 0.
Definition shunt_current (m : dc_par) (w x : nat -> R) (k : nat) (i : R) (u : list R) : res R := do d <- shunt_ode m [i; x k] u (w k); item d 0.
Definition permex_current (m : perm_par) (w : nat -> R) (k : nat) (i : R) (u : list R) : res R := do d <- perm_ode m [i] u (w k); item d 0.
(** The tuned and reset PI controller with decoupling. *)
Definition tuned_pi (e : cenv) (id : string) (a : R) (c : cctl) : Prop := exists c0 c1, cc_new id "PI" true = Ok c0 /\ cc_tune c0 e id a = Ok c1 /\ c = cc_reset c1.
(** Stability of the tuned loop: [rho] is the sampling time over the time constant of the winding. *)
Definition loop_stable (a rho : R) : Prop := 1 / (a * a * a) < 1 / a + rho /\ 2 * rho < 4 - 2 / a + 1 / (a * a * a).
