(** A speed control loop: the speed controller of gem_controllers, an ideal torque loop and a static load. *)
From Verif Require Import PyBase PyDict Transform_Model Loads_Model Wrap_Model Ctl_Model Ctl_Model2 Ctl_Spec Loop_Spec.
Local Open Scope string_scope. Local Open Scope list_scope. Local Open Scope R_scope.

(** The torque is strictly inside the range of the controller, so it is not clipped. *)
Definition in_torque_range (e : cenv) (t : R) : Prop := forall j, str_index "torque" (ce_names e) = Ok j -> comp j (ce_low e) * comp j (ce_limits e) < t < comp j (ce_high e) * comp j (ce_limits e).
(** The first [n] periods: the controller [cs k] sees the state [s k] with speed [w k] and demands the torque [t k]; the
    motor delivers it for the whole period (the dynamics of the current loop are left out), and the mechanical load is
    integrated with one Euler step. *)
Record speed_until {O} (n : nat) (e : cenv) (r : R) (p : poly) (c0 : sctl O) (cs : nat -> sctl O) (s : nat -> list R) (w t : nat -> R) : Prop := {
  sl_start : cs 0%nat = c0;
  sl_control : forall k, (k < n)%nat -> speed_control (cs k) (s k) [r] = (cs (S k), Ok [t k]);
  sl_range : forall k, (k < n)%nat -> in_torque_range e (t k);
  sl_speed : forall k, (k < n)%nat -> observed e (s k) "omega" (w k);
  sl_load : forall k, (k < n)%nat -> exists d, poly_ode p 0 [w k] (t k) = Ok [d] /\ w (S k) = w k + ce_tau e * d }.
Definition speed_loop {O} e r p (c0 : sctl O) cs s w t : Prop := forall n, speed_until n e r p c0 cs s w t.
(** The tuned and reset cascade with PI controllers, built by [GemController.make]. *)
Definition tuned_speed {O} (op : ops O) (e : cenv) (id : string) (margin a : R) (c : sctl O) : Prop :=
  exists o cc0 tc0 c0 c1 dec, cc_new id "PI" dec = Ok cc0 /\ tc_new cc0 o id = Ok tc0 /\ sc_new tc0 "PI" = Ok c0 /\ sc_tune op c0 e id margin a = Ok c1 /\ c = sc_reset op c1.
