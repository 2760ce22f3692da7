(** Model of the completion of limits and nominal values of all motors,
    src/gym_electric_motor/physical_systems/electric_motors/*.py.
    Dictionary values are floats; a NaN can only appear in the torque entry of three
    phase motors and is kept apart ([None] below). *)
From Verif Require Import PyBase PyDict Utils_Model Transform_Model Motor_Model.

(** [a or b] of an optional float: 0 and None are false *)
Definition py_or (o : option R) (alt : res R) : res R :=
  match o with Some v => if req v 0 then alt else Ok v | None => alt end.
(** [a / b] of Python floats *)
Definition py_div (a b : R) : res R := if req b 0 then Err ZeroDivisionError else Ok (a / b).
(** [d.get(k, 0) == 0] *)
Definition unset (d : dict R) (k : string) : bool :=
  match dict_get k d with Some v => req v 0 | None => true end.

(** ElectricMotor._update_limits, electric_motor.py 297-316.  [omega] is
    [_default_limits["omega"]]. *)
Definition fill_limits (limits agenda : dict R) : dict R :=
  fold_left (fun lim kv => if unset lim (fst kv) then dict_set (fst kv) (snd kv) lim else lim) agenda limits.
(** 314-316: [limits[entry]] cannot raise, [entry] runs over its own keys. *)
Definition fill_nominal (limits nominal nominal_d : dict R) : dict R :=
  fold_left (fun nom kv => if unset nom (fst kv)
                           then dict_set (fst kv) (match dict_get (fst kv) nominal_d with Some v => v | None => snd kv end) nom
                           else nom) limits nominal.
Definition base_update (omega : R) (limits nominal limits_d nominal_d : dict R) : dict R * dict R :=
  let limits' := fill_limits limits (dict_set "omega"%string omega limits_d) in
  (limits', fill_nominal limits' nominal nominal_d).

(** ** DC motors *)
(** [_default_limits] and [_default_nominal_values] of DcMotor, dc_motor.py 73-74
    (also of the shunt and series motor, dc_shunt_motor.py 59-60, dc_series_motor.py 59-60) *)
Definition dc_default_limits : dict R :=
  [("omega", 400); ("torque", 38); ("i", 210); ("i_a", 210); ("i_e", 210); ("u", 60); ("u_a", 60); ("u_e", 60)]%string.
Definition dc_default_nominal : dict R :=
  [("omega", 300); ("torque", 16); ("i", 97); ("i_a", 97); ("i_e", 97); ("u", 60); ("u_a", 60); ("u_e", 60)]%string.
(** dc_permanently_excited_motor.py 55-56 *)
Definition perm_default_limits : dict R := [("omega", 400); ("torque", 38); ("i", 210); ("u", 60)]%string.
Definition perm_default_nominal : dict R := [("omega", 300); ("torque", 16); ("i", 97); ("u", 60)]%string.

(** [[limits[state] for state in CURRENTS]] *)
Fixpoint items (ks : list string) (d : dict R) : res (list R) :=
  match ks with
  | [] => Ok []
  | k :: ks' => do v <- dict_item k d; do vs <- items ks' d; Ok (v :: vs)
  end.
(** DcMotor._update_limits, dc_motor.py 153-160 (the nominal agenda is dropped);
    [u] is not needed, [omega = 400] is the default of all DC motors *)
Definition dc_update (torque : list R -> res R) (currents : list string) (limits nominal agenda : dict R)
  : res (dict R * dict R) :=
  do cur <- items currents limits; do t <- torque cur;
  Ok (base_update 400 limits nominal (dict_set "torque"%string t agenda) []).
Definition guard_ra (ra : R) : R := if req ra 0 then 1 else ra.
(** DcExternallyExcitedMotor._update_limits, dc_externally_excited_motor.py 28-40 *)
Definition extex_update (m : dc_par) (limits nominal : dict R) : res (dict R * dict R) :=
  do ia <- py_or (dict_get "i"%string limits) (do u <- dict_item "u"%string limits; py_div u (guard_ra (dc_ra m)));
  do ie <- py_or (dict_get "i"%string limits) (do u <- dict_item "u"%string limits; py_div u (dc_re m));
  dc_update (dc_torque m) ["i_a"; "i_e"]%string limits nominal [("u_a", 60); ("u_e", 60); ("i_a", ia); ("i_e", ie)]%string.
(** DcShuntMotor._update_limits, dc_shunt_motor.py 122-134 *)
Definition shunt_update (m : dc_par) (limits nominal : dict R) : res (dict R * dict R) :=
  do ia <- py_or (dict_get "i"%string limits) (do u <- dict_item "u"%string limits; py_div u (guard_ra (dc_ra m)));
  do ie <- py_or (dict_get "i"%string limits) (do u <- dict_item "u"%string limits; py_div u (dc_re m));
  dc_update (dc_torque m) ["i_a"; "i_e"]%string limits nominal [("u", 60); ("i_a", ia); ("i_e", ie)]%string.
(** DcSeriesMotor._update_limits, dc_series_motor.py 89-98 *)
Definition series_update (m : dc_par) (limits nominal : dict R) : res (dict R * dict R) :=
  do u <- dict_item "u"%string limits; do i <- py_div u (guard_ra (dc_ra m) + dc_re m);
  dc_update (series_torque m) ["i"]%string limits nominal [("u", 60); ("i", i)]%string.
(** DcPermanentlyExcitedMotor._update_limits, dc_permanently_excited_motor.py 94-104 *)
Definition perm_update (m : perm_par) (limits nominal : dict R) : res (dict R * dict R) :=
  do u <- dict_item "u"%string limits; do i <- py_div u (guard_ra (pe_ra m));
  dc_update (perm_torque m) ["i"]%string limits nominal [("u", 60); ("i", i)]%string.

(** ElectricMotor.__init__, electric_motor.py 126-132: the user's values are merged
    into the defaults, unknown keys are refused. *)
Definition merged (default user : dict R) : res (dict R) := snd (update_parameter_dict default user true).
(** A motor constructor: merge, then complete. *)
Definition construct {A} (dl dn : dict R) (complete : dict R -> dict R -> res A) (ul un : dict R) : res A :=
  do lim <- merged dl ul; do nom <- merged dn un; complete lim nom.

(** ** Three phase motors *)
(** Class constants of permanent_magnet_synchronous_motor.py 104-105 and
    synchronous_reluctance_motor.py 114-115; externally_excited_synchronous_motor.py 122-123;
    induction_motor.py 102-103 *)
Definition sync_io_voltages : list string := ["u_a"; "u_b"; "u_c"; "u_sd"; "u_sq"]%string.
Definition sync_io_currents : list string := ["i_a"; "i_b"; "i_c"; "i_sd"; "i_sq"]%string.
Definition eesm_io_voltages : list string := ["u_a"; "u_b"; "u_c"; "u_sd"; "u_sq"; "u_e"]%string.
Definition eesm_io_currents : list string := ["i_a"; "i_b"; "i_c"; "i_sd"; "i_sq"; "i_e"]%string.
Definition scim_io_voltages : list string := ["u_sa"; "u_sb"; "u_sc"; "u_salpha"; "u_sbeta"; "u_sd"; "u_sq"]%string.
Definition scim_io_currents : list string := ["i_sa"; "i_sb"; "i_sc"; "i_salpha"; "i_sbeta"; "i_sd"; "i_sq"]%string.
(** doubly_fed_induction_motor.py 98-102, 131-132, 142-145: the names used by the
    first DFIM constructed *)
Definition dfim_io_voltages : list string :=
  scim_io_voltages ++ ["u_ra"; "u_rb"; "u_rc"; "u_rd"; "u_rq"]%string ++ ["u_ralpha"; "u_rbeta"]%string.
Definition dfim_io_currents : list string :=
  scim_io_currents ++ ["i_ra"; "i_rb"; "i_rc"; "i_rd"; "i_rq"]%string ++ ["i_ralpha"; "i_rbeta"]%string.

(** Default values: PMSM 95-96, SynRM 93-106, EESM 113-114, SCIM 106-107, DFIM 115-116 *)
Definition pmsm_default_limits : dict R := [("omega", 4000 * PI / 30); ("torque", 0); ("i", 400); ("epsilon", PI); ("u", 300)]%string.
Definition pmsm_default_nominal : dict R := [("omega", 3000 * PI / 30); ("torque", 0); ("i", 240); ("epsilon", PI); ("u", 300)]%string.
Definition synrm_default_limits : dict R := [("i", 18); ("torque", 0); ("omega", 4300 * PI / 30); ("epsilon", PI); ("u", 80)]%string.
Definition synrm_default_nominal : dict R := [("i", 10); ("torque", 0); ("omega", 3000 * PI / 30); ("epsilon", PI); ("u", 80)]%string.
Definition eesm_default_limits : dict R :=
  [("omega", 12000 * PI / 30); ("torque", 0); ("i", 150); ("i_e", 150); ("epsilon", PI); ("u", 320)]%string.
Definition eesm_default_nominal : dict R :=
  [("omega", 4300 * PI / 30); ("torque", 0); ("i", 120); ("i_e", 150); ("epsilon", PI); ("u", 320)]%string.
Definition scim_default_limits : dict R := [("omega", 4000 * PI / 30); ("torque", 0); ("i", 55 / 10); ("epsilon", PI); ("u", 560)]%string.
Definition scim_default_nominal : dict R := [("omega", 3000 * PI / 30); ("torque", 0); ("i", 39 / 10); ("epsilon", PI); ("u", 560)]%string.
Definition dfim_default_limits : dict R := [("omega", 1800 * PI / 30); ("torque", 0); ("i", 9); ("epsilon", PI); ("u", 720)]%string.
Definition dfim_default_nominal : dict R := [("omega", 1650 * PI / 30); ("torque", 0); ("i", 75 / 10); ("epsilon", PI); ("u", 720)]%string.

(** The loop of SynchronousMotor._update_limits, synchronous_motor.py 182-188, and of
    the induction motors (scim 137-143, dfim 142-151): [half] is half the voltage
    value, [r] the resistance used. *)
Fixpoint agenda (limits : dict R) (half r : R) (names : list (string * string)) (acc : dict R) : res (dict R) :=
  match names with
  | [] => Ok acc
  | (u, i) :: names' =>
      let acc1 := dict_set u half acc in
      do v <- py_or (dict_get "i"%string limits) (do lu <- dict_item u limits; py_div lu r);
      agenda limits half r names' (dict_set i v acc1)
  end.
(** Result of a three phase constructor: limits, nominal values, and whether the
    torque limit computed for a missing one is NaN (then limits and nominal torque are
    NaN and the entries here are those before the torque is filled). *)
Record tp_limits := { tp_lim : dict R; tp_nom : dict R; tp_nan : bool }.
(** SynchronousMotor._update_limits 174-189 (or scim 131-144, dfim 135-152) followed by
    ThreePhaseMotor._update_limits, three_phase_motor.py 127-133.
    [tlimit lim nom] is [_torque_limit]: [None] for NaN. *)
Definition tp_update (omega r : R) (names : list (string * string)) (tlimit : dict R -> dict R -> res (option R))
    (limits nominal : dict R) : res tp_limits :=
  do ul <- dict_item "u"%string limits; do un <- dict_item "u"%string nominal;
  do la <- agenda limits (1 / 2 * ul) r names []; do na <- agenda nominal (1 / 2 * un) r names [];
  let (lim, nom) := base_update omega limits nominal la na in
  do t <- tlimit lim nom;
  match t with
  | Some tq => let (lim', nom') := base_update omega lim nom [("torque"%string, tq)] [] in
               Ok {| tp_lim := lim'; tp_nom := nom'; tp_nan := false |}
  | None => Ok {| tp_lim := lim; tp_nom := nom; tp_nan := unset lim "torque"%string |}
  end.

(** [np.sqrt]: NaN for negative arguments *)
Definition np_sqrt (x : R) : option R := if rlt x 0 then None else Some (sqrt x).
Definition with_nan (o : option R) (f : R -> res (option R)) : res (option R) :=
  match o with Some v => f v | None => Ok None end.
Definition some_r (r : res R) : res (option R) := do v <- r; Ok (Some v).
(** PermanentMagnetSynchronousMotor._torque_limit 121-132 *)
Definition pmsm_torque_limit (m : pmsm_par) (lim nom : dict R) : res (option R) :=
  if req (pm_ld m) (pm_lq m) then
    do iq <- dict_item "i_sq"%string lim; some_r (pmsm_torque m [0; iq; 0])
  else
    do i_n <- dict_item "i"%string nom;
    let p' := pm_psi m / (2 * (pm_ld m - pm_lq m)) in
    let q' := - (i_n * i_n) / 2 in
    with_nan (np_sqrt (p' / 2 * (p' / 2) - q')) (fun s =>
      let id := - p' / 2 - s in
      with_nan (np_sqrt (i_n * i_n - id * id)) (fun iq => some_r (pmsm_torque m [id; iq; 0]))).
(** SynchronousReluctanceMotor._torque_limit 132-134 *)
Definition synrm_torque_limit (m : synrm_par) (lim nom : dict R) : res (option R) :=
  do id <- dict_item "i_sd"%string lim; do iq <- dict_item "i_sq"%string lim;
  some_r (synrm_torque m [id / sqrt 2; iq / sqrt 2; 0]).
(** ExternallyExcitedSynchronousMotor._torque_limit 184-198 *)
Definition eesm_torque_limit (m : eesm_par) (lim nom : dict R) : res (option R) :=
  if req (ee_ld m) (ee_lq m) then
    do iq <- dict_item "i_sq"%string lim; do ie <- dict_item "i_e"%string lim; some_r (eesm_torque m [0; iq; ie; 0])
  else
    do i_n <- dict_item "i"%string nom;
    let p' := ee_lM m * i_n / (2 * (ee_ld m - ee_lq m)) in
    let q' := - (i_n * i_n) / 2 in
    with_nan (np_sqrt (p' / 2 * (p' / 2) - q')) (fun s =>
      let id := if rlt (ee_ld m) (ee_lq m) then - p' / 2 - s else - p' / 2 + s in
      with_nan (np_sqrt (i_n * i_n - id * id)) (fun iq =>
        do ie <- dict_item "i_e"%string lim; some_r (eesm_torque m [id; iq; ie; 0]))).
(** InductionMotor._torque_limit, induction_motor.py 223-234 *)
Definition im_torque_limit (m : im_par) (lim nom : dict R) : res (option R) :=
  do id <- dict_item "i_sd"%string lim; do iq <- dict_item "i_sq"%string lim;
  Ok (Some (15 / 10 * im_p m * (im_lm m * im_lm m) / (im_lm m + im_lsigr m) * id * iq / 2)).

(** Constructors with the class defaults; the arguments are the user's
    [limit_values] and [nominal_values].  DFIM uses the rotor resistance (148-150). *)
Definition pmsm_new (m : pmsm_par) : dict R -> dict R -> res tp_limits :=
  construct pmsm_default_limits pmsm_default_nominal
    (tp_update (4000 * PI / 30) (pm_rs m) (combine sync_io_voltages sync_io_currents) (pmsm_torque_limit m)).
Definition synrm_new (m : synrm_par) : dict R -> dict R -> res tp_limits :=
  construct synrm_default_limits synrm_default_nominal
    (tp_update (4300 * PI / 30) (sr_rs m) (combine sync_io_voltages sync_io_currents) (synrm_torque_limit m)).
Definition eesm_new (m : eesm_par) : dict R -> dict R -> res tp_limits :=
  construct eesm_default_limits eesm_default_nominal
    (tp_update (12000 * PI / 30) (ee_rs m) (combine eesm_io_voltages eesm_io_currents) (eesm_torque_limit m)).
Definition scim_new (m : im_par) : dict R -> dict R -> res tp_limits :=
  construct scim_default_limits scim_default_nominal
    (tp_update (4000 * PI / 30) (im_rs m) (combine scim_io_voltages scim_io_currents) (im_torque_limit m)).
Definition dfim_new (m : im_par) : dict R -> dict R -> res tp_limits :=
  construct dfim_default_limits dfim_default_nominal
    (tp_update (1800 * PI / 30) (im_rr m) (combine dfim_io_voltages dfim_io_currents) (im_torque_limit m)).
Definition extex_new (m : dc_par) := construct dc_default_limits dc_default_nominal (extex_update m).
Definition shunt_new (m : dc_par) := construct dc_default_limits dc_default_nominal (shunt_update m).
Definition series_new (m : dc_par) := construct dc_default_limits dc_default_nominal (series_update m).
Definition perm_new (m : perm_par) := construct perm_default_limits perm_default_nominal (perm_update m).
