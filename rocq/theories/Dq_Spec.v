(** The current control loop of a synchronous motor: the controller of gem_controllers and the motor equation in dq coordinates. *)
From Verif Require Import PyBase PyDict Transform_Model Motor_Model Wrap_Model Ctl_Model Ctl_Model2 Ctl_Spec Loop_Spec.
Local Open Scope string_scope. Local Open Scope list_scope. Local Open Scope R_scope.

(** The space vector of the phase voltages [u] is inside the ellipse of the voltage limits, at every angle. *)
Definition in_dq_range (e : cenv) (u : list R) : Prop :=
  forall jd jq th v, str_index "u_sd" (ce_names e) = Ok jd -> str_index "u_sq" (ce_names e) = Ok jq -> abc_to_dq u th false = Ok v ->
  Rsqr (comp 0 v / comp jd (ce_limits e)) + Rsqr (comp 1 v / comp jq (ce_limits e)) < 1.
(** The first [n] periods of a closed loop at the constant speed [w], in denormalised quantities: in period [k] the
    controller [cs k] sees the state [s k] with the currents [id k], [iq k] and the angle [eps k], and puts out the phase
    voltages [u k]; they are inside the limits and applied for the whole period.  As in SynchronousMotorSystem.simulate
    (physical_systems.py 487-525) they are brought to dq coordinates with the angle at the start of the period, and the
    motor is integrated with one Euler step.  Nothing is assumed about the course of the angle. *)
Record dq_until (n : nat) (e : cenv) (rd rq w : R) (ode : list R -> list R -> R -> res (list R)) (c0 : cctl) (cs : nat -> cctl) (s : nat -> list R) (id iq eps : nat -> R) (u : nat -> list R) : Prop := {
  dq_start : cs O = c0;
  dq_control : forall k, (k < n)%nat -> current_control (cs k) (s k) [rd; rq] = (cs (Datatypes.S k), Ok (u k));
  dq_range : forall k, (k < n)%nat -> in_dq_range e (u k);
  dq_observed : forall k, (k < n)%nat -> observed e (s k) "i_sd" (id k) /\ observed e (s k) "i_sq" (iq k) /\ observed e (s k) "epsilon" (eps k) /\ observed e (s k) "omega" w;
  dq_motor : forall k, (k < n)%nat -> exists v dd dq de, abc_to_dq (u k) (eps k) false = Ok v /\ ode [id k; iq k; eps k] v w = Ok [dd; dq; de] /\
    id (Datatypes.S k) = id k + ce_tau e * dd /\ iq (Datatypes.S k) = iq k + ce_tau e * dq }.
Definition dq_loop e rd rq w ode c0 cs s id iq eps u : Prop := forall n, dq_until n e rd rq w ode c0 cs s id iq eps u.
(** Stability of the loop of a motor with equal inductances: [rho] is the sampling time over the time constant of the
    winding, [x] the electrical angle of one period and [phi] the advance of the angle in the output transformation.
    With complex g = e^(j phi) / a + rho - j x (e^(j phi) - 1), t = 2 - g and d = 1 - g + e^(j phi) / a^3 both solutions of
    z^2 - t z + d = 0 are inside the unit circle (criterion of Schur and Cohn). *)
Definition dq_stable (a rho x phi : R) : Prop :=
  let gr := cos phi / a + rho + x * sin phi in let gi := sin phi / a + x * (1 - cos phi) in
  let tr := 2 - gr in let ti := - gi in
  let dr := 1 - gr + cos phi / (a * a * a) in let di := - gi + sin phi / (a * a * a) in
  let D := dr * dr + di * di in
  D < 1 /\ Rsqr (tr - (dr * tr + di * ti)) + Rsqr (ti - (di * tr - dr * ti)) < (1 - D) * (1 - D).
(** The advance of the angle at the speed [w], see [abc_voltage_angle]. *)
Definition advance (e : cenv) (w : R) : R := (if match ce_dead e with Some d => d | None => false end then 3 / 2 else 1 / 2) * w / 10000.
