(** Vocabulary for the motor equations: partial derivatives and energy balance,
    stated for arbitrary differential equations [ode], torques and jacobians. *)
From Verif Require Import PyBase Transform_Model Motor_Model.

(** Component [i] of a returned array (0 if there is none). *)
Definition comp (r : res (list R)) (i : nat) : R := match r with Ok l => nth i l 0 | Err _ => 0 end.
Definition val (r : res R) : R := match r with Ok a => a | Err _ => 0 end.

Section Jac.
Context {U : Type}.
(** The three results of [electrical_jacobian] are the partial derivatives of the
    ODE with respect to every state and to the speed, and of the torque with respect
    to every state; for every state of length [n], admissible input and speed.
    Nothing raises. *)
Definition is_jacobian (n : nat) (admissible : U -> Prop)
    (ode : list R -> U -> R -> res (list R)) (torque : list R -> res R)
    (jac : list R -> U -> R -> res (list (list R) * list R * list R)) : Prop :=
  forall x u w, length x = n -> admissible u ->
  exists f T J Jw Jt,
    ode x u w = Ok f /\ length f = n /\ torque x = Ok T /\ jac x u w = Ok (J, Jw, Jt) /\
    length J = n /\ (forall i, (i < n)%nat -> length (nth i J []) = n) /\ length Jw = n /\ length Jt = n /\
    (forall i j, (i < n)%nat -> (j < n)%nat ->
       derivable_pt_lim (fun s => comp (ode (list_set j s x) u w) i) (nth j x 0) (nth j (nth i J []) 0)) /\
    (forall i, (i < n)%nat -> derivable_pt_lim (fun s => comp (ode x u s) i) w (nth i Jw 0)) /\
    (forall j, (j < n)%nat -> derivable_pt_lim (fun s => val (torque (list_set j s x))) (nth j x 0) (nth j Jt 0)).

(** [x] follows the differential equation at time [t]. *)
Definition follows (n : nat) (ode : list R -> U -> R -> res (list R)) (x : R -> list R) (u : U) (w t : R) : Prop :=
  exists d, ode (x t) u w = Ok d /\ length d = n /\
    forall k, (k < n)%nat -> derivable_pt_lim (fun s => nth k (x s) 0) t (nth k d 0).
(** Along every trajectory of length [n]: input power = losses + change of the
    stored energy + torque * speed. *)
Definition energy_balance (n : nat) (admissible : U -> Prop)
    (ode : list R -> U -> R -> res (list R)) (torque : list R -> res R)
    (energy : list R -> R) (input : list R -> U -> R) (loss : list R -> R) : Prop :=
  forall x u w t, (forall s, length (x s) = n) -> admissible u -> follows n ode x u w t ->
  exists T, torque (x t) = Ok T /\
    derivable_pt_lim (fun s => energy (x s)) t (input (x t) u - loss (x t) - T * w).
End Jac.

Definition len_is (k : nat) (u : list R) : Prop := length u = k.
Definition is_2x2 (u : list (list R)) : Prop := exists a b c d, u = [[a; b]; [c; d]].

(** Entry of a state vector. *)
Definition ix (x : list R) (k : nat) : R := nth k x 0.

(** Magnetic energies, input powers and copper losses. *)
Definition dc_energy (m : dc_par) (x : list R) : R := dc_la m / 2 * (ix x 0 * ix x 0) + dc_le m / 2 * (ix x 1 * ix x 1).
Definition dc_input (x u : list R) : R := ix u 0 * ix x 0 + ix u 1 * ix x 1.
Definition dc_loss (m : dc_par) (x : list R) : R := dc_ra m * (ix x 0 * ix x 0) + dc_re m * (ix x 1 * ix x 1).
Definition shunt_input (x u : list R) : R := ix u 0 * (ix x 0 + ix x 1).
Definition series_energy (m : dc_par) (x : list R) : R := (dc_la m + dc_le m) / 2 * (ix x 0 * ix x 0).
Definition series_input (x u : list R) : R := ix u 0 * ix x 0.
Definition series_loss (m : dc_par) (x : list R) : R := (dc_ra m + dc_re m) * (ix x 0 * ix x 0).
Definition perm_energy (m : perm_par) (x : list R) : R := pe_la m / 2 * (ix x 0 * ix x 0).
Definition perm_loss (m : perm_par) (x : list R) : R := pe_ra m * (ix x 0 * ix x 0).
(** three phase quantities: 3/2 of the products of dq (or alpha-beta) components *)
Definition sync_energy (ld lq : R) (x : list R) : R := 3 / 4 * (ld * (ix x 0 * ix x 0) + lq * (ix x 1 * ix x 1)).
Definition sync_input (x u : list R) : R := 3 / 2 * (ix u 0 * ix x 0 + ix u 1 * ix x 1).
Definition sync_loss (rs : R) (x : list R) : R := 3 / 2 * rs * (ix x 0 * ix x 0 + ix x 1 * ix x 1).
(** EESM: the excitation winding carries [u_e i_e]; energy in original rotor
    quantities: 3/4 (l_d i_d^2 + l_q i_q^2) + 3/2 l_m i_d i_e + 1/2 l_e i_e^2 *)
Definition eesm_energy (m : eesm_par) (x : list R) : R :=
  3 / 4 * (ee_ld m * (ix x 0 * ix x 0) + ee_lq m * (ix x 1 * ix x 1)) + 3 / 2 * ee_lm m * (ix x 0 * ix x 2) +
  1 / 2 * ee_le m * (ix x 2 * ix x 2).
Definition eesm_input (x u : list R) : R := 3 / 2 * (ix u 0 * ix x 0 + ix u 1 * ix x 1) + ix u 2 * ix x 2.
Definition eesm_loss (m : eesm_par) (x : list R) : R :=
  3 / 2 * ee_rs m * (ix x 0 * ix x 0 + ix x 1 * ix x 1) + ee_re m * (ix x 2 * ix x 2).
(** induction motor: rotor current from flux and stator current *)
Definition rotor_current (m : im_par) (x : list R) (k : nat) : R := (ix x (2 + k) - im_lm m * ix x k) / im_lr m.
Definition im_energy (m : im_par) (x : list R) : R :=
  3 / 4 * (im_sigma m * im_ls m * (ix x 0 * ix x 0 + ix x 1 * ix x 1) + (ix x 2 * ix x 2 + ix x 3 * ix x 3) / im_lr m).
Definition im_input (m : im_par) (x : list R) (u : list (list R)) : R :=
  3 / 2 * (ix (nth 0 u []) 0 * ix x 0 + ix (nth 0 u []) 1 * ix x 1 +
           ix (nth 1 u []) 0 * rotor_current m x 0 + ix (nth 1 u []) 1 * rotor_current m x 1).
Definition im_loss (m : im_par) (x : list R) : R :=
  3 / 2 * (im_rs m * (ix x 0 * ix x 0 + ix x 1 * ix x 1) +
           im_rr m * (rotor_current m x 0 * rotor_current m x 0 + rotor_current m x 1 * rotor_current m x 1)).
(** Physical parameters. *)
Definition dc_ok (m : dc_par) : Prop := 0 < dc_la m /\ 0 < dc_le m /\ 0 <= dc_ra m /\ 0 <= dc_re m.
Definition im_ok (m : im_par) : Prop := 0 < im_lm m /\ 0 < im_lsigs m /\ 0 < im_lsigr m /\ 0 <= im_rs m /\ 0 < im_rr m.

(** Rotation of the two axes of stator current and rotor flux by an angle (the
    rotor position entry is kept). *)
Definition rot (e a b : R) : list R := [cos e * a - sin e * b; sin e * a + cos e * b].
Definition rot_state (e : R) (x : list R) : list R :=
  rot e (ix x 0) (ix x 1) ++ rot e (ix x 2) (ix x 3) ++ [ix x 4].
Definition rot_input (e : R) (u : list (list R)) : list (list R) := map (fun v => rot e (ix v 0) (ix v 1)) u.
(** [x] follows the equation with locked rotor and constant input on an interval. *)
Definition locked {U} (n : nat) (ode : list R -> U -> R -> res (list R)) (u : U) (x : R -> list R) (a b : R) : Prop :=
  a <= b /\ (forall s, length (x s) = n) /\ (forall t, a <= t <= b -> follows n ode x u 0 t).
