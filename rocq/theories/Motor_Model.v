(** Model of the electrical equations of all motors,
    src/gym_electric_motor/physical_systems/electric_motors/*.py.
    States, inputs and model constants are numpy arrays (lists); indexing raises
    IndexError, [numpy.matmul] raises ValueError on a dimension mismatch.  Motor
    parameter dictionaries are records.  Division by a zero inductance (inf or
    ZeroDivisionError in the code) is not modelled: every theorem asks for non-zero
    denominators. *)
From Verif Require Import PyBase Transform_Model.

(** ** DC motors *)
(** motor parameters of the DC motors, dc_motor.py 65-72 (j_rotor is used by the load only) *)
Record dc_par := { dc_ra : R; dc_re : R; dc_la : R; dc_lep : R; dc_le : R }.
Definition row_div (row : list R) (k : R) : list R := map (fun x => x / k) row.

(** DcMotor, dc_motor.py: [_update_model] 96-104 *)
Definition dc_constants (m : dc_par) : list (list R) :=
  [row_div [- dc_ra m; 0; - dc_lep m; 1; 0] (dc_la m); row_div [0; - dc_re m; 0; 0; 1] (dc_le m)].
(** [torque] 106-108 *)
Definition dc_torque (m : dc_par) (x : list R) : res R :=
  do ia <- item x 0; do ie <- item x 1; Ok (dc_lep m * ia * ie).
(** [i_in] 110-112 *)
Definition dc_i_in (x : list R) : res (list R) := Ok x.
(** [electrical_ode] 114-127; used unchanged by DcExternallyExcitedMotor *)
Definition dc_ode (m : dc_par) (x u : list R) (w : R) : res (list R) :=
  do ia <- item x 0; do ie <- item x 1; do ie' <- item x 1; do u0 <- item u 0; do u1 <- item u 1;
  matvec (dc_constants m) [ia; ie; w * ie'; u0; u1].
(** DcExternallyExcitedMotor.electrical_jacobian, dc_externally_excited_motor.py 10-26 *)
Definition extex_jacobian (m : dc_par) (x u : list R) (w : R) : res (list (list R) * list R * list R) :=
  do ia <- item x 0; do ie <- item x 1;
  Ok ([[- dc_ra m / dc_la m; - dc_lep m / dc_la m * w]; [0; - dc_re m / dc_le m]],
      [- dc_lep m * ie / dc_la m; 0],
      [dc_lep m * ie; dc_lep m * ia]).

(** DcShuntMotor, dc_shunt_motor.py: [i_in] 68-70, [electrical_ode] 72-74,
    [electrical_jacobian] 76-92 *)
Definition shunt_i_in (x : list R) : res (list R) := do ia <- item x 0; do ie <- item x 1; Ok [ia + ie].
Definition shunt_ode (m : dc_par) (x u : list R) (w : R) : res (list R) :=
  do u0 <- item u 0; dc_ode m x [u0; u0] w.
Definition shunt_jacobian (m : dc_par) (x u : list R) (w : R) : res (list (list R) * list R * list R) :=
  do ia <- item x 0; do ie <- item x 1;
  Ok ([[- dc_ra m / dc_la m; - dc_lep m / dc_la m * w]; [0; - dc_re m / dc_le m]],
      [- dc_lep m * ie / dc_la m; 0],
      [dc_lep m * ie; dc_lep m * ia]).

(** DcSeriesMotor, dc_series_motor.py: [_update_model] 68-72, [torque] 74-76,
    [electrical_ode] 78-83, [i_in] 85-87, [electrical_jacobian] 116-122 *)
Definition series_constants (m : dc_par) : list (list R) :=
  [row_div [- dc_ra m - dc_re m; - dc_lep m; 1] (dc_la m + dc_le m)].
Definition series_torque (m : dc_par) (x : list R) : res R :=
  do i <- item x 0; do i' <- item x 0; dc_torque m [i; i'].
Definition series_ode (m : dc_par) (x u : list R) (w : R) : res (list R) :=
  do i <- item x 0; do u0 <- item u 0; matvec (series_constants m) [i; w * i; u0].
Definition series_i_in (x : list R) : res (list R) := select [0%nat] x.
Definition series_jacobian (m : dc_par) (x u : list R) (w : R) : res (list (list R) * list R * list R) :=
  do i <- item x 0;
  Ok ([[- (dc_ra m + dc_re m + dc_lep m * w) / (dc_la m + dc_le m)]],
      [- dc_lep m * i / (dc_la m + dc_le m)],
      [2 * dc_lep m * i]).

(** DcPermanentlyExcitedMotor, dc_permanently_excited_motor.py: parameters 49-54,
    [torque] 67-69, [_update_model] 71-75, [i_in] 77-79, [electrical_ode] 81-84 (the
    class level placeholder array is overwritten before each use),
    [electrical_jacobian] 86-92 *)
Record perm_par := { pe_ra : R; pe_la : R; pe_psi : R }.
Definition perm_constants (m : perm_par) : list (list R) := [row_div [- pe_psi m; - pe_ra m; 1] (pe_la m)].
Definition perm_torque (m : perm_par) (x : list R) : res R := do i <- item x 0; Ok (pe_psi m * i).
Definition perm_ode (m : perm_par) (x u : list R) (w : R) : res (list R) :=
  do i <- item x 0; do u0 <- item u 0; matvec (perm_constants m) [w; i; u0].
Definition perm_i_in (x : list R) : res (list R) := select [0%nat] x.
Definition perm_jacobian (m : perm_par) (x u : list R) (w : R) : res (list (list R) * list R * list R) :=
  Ok ([[- pe_ra m / pe_la m]], [- pe_psi m / pe_la m], [pe_psi m]).

(** ** Synchronous motors *)
(** SynchronousMotor.electrical_ode, synchronous_motor.py 143-168; [i_in] 170-172 *)
Definition sync_ode (constants : list (list R)) (x u : list R) (w : R) : res (list R) :=
  do id <- item x 0; do iq <- item x 1; do ud <- item u 0; do uq <- item u 1;
  matvec constants [w; id; iq; ud; uq; w * id; w * iq].
Definition sync_i_in (x : list R) : res (list R) := select [0%nat; 1%nat] x.

(** PermanentMagnetSynchronousMotor, permanent_magnet_synchronous_motor.py:
    parameters 86-93, [_update_model] 107-119, [torque] 134-139,
    [electrical_jacobian] 141-173 *)
Record pmsm_par := { pm_p : R; pm_ld : R; pm_lq : R; pm_rs : R; pm_psi : R }.
Definition pmsm_constants (m : pmsm_par) : list (list R) :=
  [row_div [0; - pm_rs m; 0; 1; 0; 0; pm_lq m * pm_p m] (pm_ld m);
   row_div [- pm_psi m * pm_p m; 0; - pm_rs m; 0; 1; - pm_ld m * pm_p m; 0] (pm_lq m);
   [pm_p m; 0; 0; 0; 0; 0; 0]].
Definition pmsm_ode (m : pmsm_par) := sync_ode (pmsm_constants m).
Definition pmsm_torque (m : pmsm_par) (x : list R) : res R :=
  do id <- item x 0; do iq <- item x 1; Ok (15 / 10 * pm_p m * (pm_psi m + (pm_ld m - pm_lq m) * id) * iq).
Definition pmsm_jacobian (m : pmsm_par) (x u : list R) (w : R) : res (list (list R) * list R * list R) :=
  do id <- item x 0; do iq <- item x 1;
  Ok ([[- pm_rs m / pm_ld m; pm_lq m / pm_ld m * w * pm_p m; 0];
       [- pm_ld m / pm_lq m * w * pm_p m; - pm_rs m / pm_lq m; 0];
       [0; 0; 0]],
      [pm_p m * pm_lq m / pm_ld m * iq; - pm_p m * pm_ld m / pm_lq m * id - pm_p m * pm_psi m / pm_lq m; pm_p m],
      [15 / 10 * pm_p m * (pm_ld m - pm_lq m) * iq; 15 / 10 * pm_p m * (pm_psi m + (pm_ld m - pm_lq m) * id); 0]).

(** SynchronousReluctanceMotor, synchronous_reluctance_motor.py: parameters 85-91,
    [_update_model] 117-130, [torque] 136-139, [electrical_jacobian] 141-173 *)
Record synrm_par := { sr_p : R; sr_ld : R; sr_lq : R; sr_rs : R }.
Definition synrm_constants (m : synrm_par) : list (list R) :=
  [row_div [0; - sr_rs m; 0; 1; 0; 0; sr_lq m * sr_p m] (sr_ld m);
   row_div [0; 0; - sr_rs m; 0; 1; - sr_ld m * sr_p m; 0] (sr_lq m);
   [sr_p m; 0; 0; 0; 0; 0; 0]].
Definition synrm_ode (m : synrm_par) := sync_ode (synrm_constants m).
Definition synrm_torque (m : synrm_par) (x : list R) : res R :=
  do id <- item x 0; do iq <- item x 1; Ok (15 / 10 * sr_p m * ((sr_ld m - sr_lq m) * id) * iq).
Definition synrm_jacobian (m : synrm_par) (x u : list R) (w : R) : res (list (list R) * list R * list R) :=
  do id <- item x 0; do iq <- item x 1;
  Ok ([[- sr_rs m / sr_ld m; sr_lq m / sr_ld m * sr_p m * w; 0];
       [- sr_ld m / sr_lq m * sr_p m * w; - sr_rs m / sr_lq m; 0];
       [0; 0; 0]],
      [sr_p m * sr_lq m / sr_ld m * iq; - sr_p m * sr_ld m / sr_lq m * id; sr_p m],
      [15 / 10 * sr_p m * (sr_ld m - sr_lq m) * iq; 15 / 10 * sr_p m * (sr_ld m - sr_lq m) * id; 0]).

(** ExternallyExcitedSynchronousMotor, externally_excited_synchronous_motor.py:
    parameters 101-111; [_update_model] 125-149 writes the rotor quantities referred
    to the stator into the parameter dictionary (130-135) and builds the matrix;
    [electrical_ode] 153-182; [torque] 200-203; [electrical_jacobian] 205-228 *)
Record eesm_par := { ee_p : R; ee_ld : R; ee_lq : R; ee_lm : R; ee_le : R; ee_rs : R; ee_re : R; ee_k : R }.
Definition ee_rE (m : eesm_par) : R := ee_k m * ee_k m * 3 / 2 * ee_re m.
Definition ee_lM (m : eesm_par) : R := ee_k m * 3 / 2 * ee_lm m.
Definition ee_lE (m : eesm_par) : R := ee_k m * ee_k m * 3 / 2 * ee_le m.
Definition ee_rs_ratio (m : eesm_par) : R := 2 / 3 / ee_k m.
Definition ee_sigma (m : eesm_par) : R := 1 - ee_lM m * ee_lM m / (ee_ld m * ee_lE m).
Definition eesm_constants (m : eesm_par) : list (list R) :=
  let s := ee_sigma m in let lM := ee_lM m in let lE := ee_lE m in let rE := ee_rE m in
  let kr := ee_rs_ratio m in let ld := ee_ld m in let lq := ee_lq m in let rs := ee_rs m in
  let p := ee_p m in let k := ee_k m in
  [row_div [0; - rs / s; 0; lM * rE / (s * lE) * kr; 1 / s; 0; - lM * k / (s * lE); 0; lq * p / s; 0] ld;
   row_div [0; 0; - rs; 0; 0; 1; 0; - ld * p; 0; - p * lM * kr] lq;
   row_div (row_div [0; lM * rs / (s * ld); 0; - rE / s * kr; - lM / (s * ld); 0; k / s; 0; - p * lM * lq / (s * ld); 0] lE) kr;
   [p; 0; 0; 0; 0; 0; 0; 0; 0; 0]].
Definition eesm_ode (m : eesm_par) (x u : list R) (w : R) : res (list R) :=
  do id <- item x 0; do iq <- item x 1; do ie <- item x 2; do ud <- item u 0; do uq <- item u 1; do ue <- item u 2;
  matvec (eesm_constants m) [w; id; iq; ie; ud; uq; ue; w * id; w * iq; w * ie].
Definition eesm_i_in (x : list R) : res (list R) := select [0%nat; 1%nat; 2%nat] x.
Definition eesm_torque (m : eesm_par) (x : list R) : res R :=
  do ie <- item x 2; do id <- item x 0; do iq <- item x 1;
  Ok (15 / 10 * ee_p m * (ee_lM m * ie * ee_rs_ratio m + (ee_ld m - ee_lq m) * id) * iq).
Definition eesm_jacobian (m : eesm_par) (x u : list R) (w : R) : res (list (list R) * list R * list R) :=
  let s := ee_sigma m in let lM := ee_lM m in let lE := ee_lE m in let rE := ee_rE m in
  let kr := ee_rs_ratio m in let ld := ee_ld m in let lq := ee_lq m in let rs := ee_rs m in
  let p := ee_p m in
  do id <- item x 0; do iq <- item x 1; do ie <- item x 2;
  Ok ([[- rs / (ld * s); lq / (s * ld) * w * p; lM * rE / (s * ld * lE) * kr; 0];
       [- ld / lq * w * p; - rs / lq; - w * p * lM / lq * kr; 0];
       [lM * rs / (s * ld * lE * kr); - w * p * lM * lq / (s * ld * lE * kr); - rE / (s * lE); 0];
       [0; 0; 0; 0]],
      [p * lq / (ld * s) * iq; - p * ld / lq * id - p * lM / lq * ie * kr; - p * lM * lq / (s * ld * lE * kr) * iq; p],
      [15 / 10 * p * (ld - lq) * iq; 15 / 10 * p * (lM * ie * kr + (ld - lq) * id); 15 / 10 * p * lM * kr * iq; 0]).
(** class defaults 101-111 *)
Definition eesm_default : eesm_par :=
  {| ee_p := 3; ee_ld := 166 / 100000; ee_lq := 35 / 100000; ee_lm := 1589 / 1000000; ee_le := 174 / 100000;
     ee_rs := 1555 / 100000; ee_re := 72 / 10000; ee_k := 6521 / 100 |}.

(** ** Induction motors *)
(** InductionMotor, induction_motor.py: parameters 108-116; [_update_model] 287-312;
    [electrical_ode] 187-217 (the input is a 2x2 array of stator and rotor voltages);
    [i_in] 219-221; [torque] 236-248; [electrical_jacobian] 315-364 *)
Record im_par := { im_p : R; im_lm : R; im_lsigs : R; im_lsigr : R; im_rs : R; im_rr : R }.
Definition im_ls (m : im_par) : R := im_lm m + im_lsigs m.
Definition im_lr (m : im_par) : R := im_lm m + im_lsigr m.
Definition im_sigma (m : im_par) : R := (im_ls m * im_lr m - im_lm m * im_lm m) / (im_ls m * im_lr m).
Definition im_taur (m : im_par) : R := im_lr m / im_rr m.
Definition im_tausig (m : im_par) : R :=
  im_sigma m * im_ls m / (im_rs m + im_rr m * (im_lm m * im_lm m) / (im_lr m * im_lr m)).
Definition im_constants (m : im_par) : list (list R) :=
  let s := im_sigma m in let ls := im_ls m in let lr := im_lr m in let lm := im_lm m in let p := im_p m in
  let rr := im_rr m in
  [[0; -1 / im_tausig m; 0; lm * rr / (s * ls * (lr * lr)); 0; 0; lm * p / (s * lr * ls); 1 / (s * ls); 0; - lm / (s * lr * ls); 0];
   [0; 0; -1 / im_tausig m; 0; lm * rr / (s * ls * (lr * lr)); - lm * p / (s * lr * ls); 0; 0; 1 / (s * ls); 0; - lm / (s * lr * ls)];
   [0; lm / im_taur m; 0; -1 / im_taur m; 0; 0; - p; 0; 0; 1; 0];
   [0; 0; lm / im_taur m; 0; -1 / im_taur m; p; 0; 0; 0; 0; 1];
   [p; 0; 0; 0; 0; 0; 0; 0; 0; 0; 0]].
Definition item2 (u : list (list R)) (i j : nat) : res R :=
  match nth_error u i with Some row => item row j | None => Err IndexError end.
Definition im_ode (m : im_par) (x : list R) (u : list (list R)) (w : R) : res (list R) :=
  do ia <- item x 0; do ib <- item x 1; do pa <- item x 2; do pb <- item x 3;
  do usa <- item2 u 0 0; do usb <- item2 u 0 1; do ura <- item2 u 1 0; do urb <- item2 u 1 1;
  matvec (im_constants m) [w; ia; ib; pa; pb; w * pa; w * pb; usa; usb; ura; urb].
Definition im_i_in (x : list R) : res (list R) := select [0%nat; 1%nat] x.
Definition im_torque (m : im_par) (x : list R) : res R :=
  do pa <- item x 2; do ib <- item x 1; do pb <- item x 3; do ia <- item x 0;
  Ok (15 / 10 * im_p m * im_lm m / (im_lm m + im_lsigr m) * (pa * ib - pb * ia)).
Definition im_jacobian {U} (m : im_par) (x : list R) (u : U) (w : R) : res (list (list R) * list R * list R) :=
  let s := im_sigma m in let ls := im_ls m in let lr := im_lr m in let lm := im_lm m in let p := im_p m in
  let rr := im_rr m in
  do ia <- item x 0; do ib <- item x 1; do pa <- item x 2; do pb <- item x 3;
  Ok ([[-1 / im_tausig m; 0; lm * rr / (s * ls * (lr * lr)); w * lm * p / (s * lr * ls); 0];
       [0; -1 / im_tausig m; - w * lm * p / (s * lr * ls); lm * rr / (s * ls * (lr * lr)); 0];
       [lm / im_taur m; 0; -1 / im_taur m; - w * p; 0];
       [0; lm / im_taur m; w * p; -1 / im_taur m; 0];
       [0; 0; 0; 0; 0]],
      [lm * p / (s * lr * ls) * pb; - lm * p / (s * lr * ls) * pa; - p * pb; p * pa; p],
      [- pb * 3 / 2 * p * lm / lr; pa * 3 / 2 * p * lm / lr; ib * 3 / 2 * p * lm / lr; - ia * 3 / 2 * p * lm / lr; 0]).
(** SquirrelCageInductionMotor.electrical_ode, squirrel_cage_induction_motor.py
    121-129: rotor voltages are an array of zeros of the same shape *)
Definition scim_ode (m : im_par) (x u : list R) (w : R) : res (list R) :=
  im_ode m x [u; map (fun _ => 0) u] w.
(** DoublyFedInductionMotor uses InductionMotor.electrical_ode unchanged. *)
Definition dfim_ode := im_ode.
