(** The environments shipped with the package: src/gym_electric_motor/__init__.py and the
    classes under src/gym_electric_motor/envs/.

    Each environment class only assembles modules: it calls [initialize] (utils.py 5-16) for
    every module with a default class and default arguments.  An entry of the table below is
    what such a class builds when it is called without arguments.  Left out: the dashboard
    except for its [state_plots], the parameters of the polynomial loads and
    [calc_jacobian]; the ODE solver is ScipyOdeSolver in all of them. *)
From Verif Require Import PyBase PyDict.
Local Open Scope string_scope. Local Open Scope list_scope. Local Open Scope R_scope.

(** The classes of physical systems, motors, elementary converters and loads. *)
Inductive sys_class := DcSys | SyncSys | EesmSys | ScimSys | DfimSys.
Inductive motor_class := PermExDc | ExtExDc | SeriesDc | ShuntDc | Pmsm | Synrm | Eesm | Scim | Dfim.
Inductive elementary := Cont4 | ContB6 | Fin4 | FinB6.
(** [Multi true] is FiniteMultiConverter, [Multi false] ContMultiConverter. *)
Inductive conv_class := Single (e : elementary) | Multi (finite : bool) (l : list elementary).
Inductive load_class := LConst (omega : R) | LPoly.
(** A WienerProcessReferenceGenerator: [reference_state], [limit_margin] (None: not given),
    [sigma_range] (default of wiener_process_reference_generator.py 11). *)
Record wiener_ref := { rf_state : string; rf_margin : option (R * R); rf_sigma : R * R }.
(** A single generator or a MultipleReferenceGenerator. *)
Inductive ref_class := One (r : wiener_ref) | Several (l : list wiener_ref).
(** An element of the [constraints] tuple: a state name, SquaredConstraint, LimitConstraint. *)
Inductive dconstraint := DName (s : string) | DSquared (l : list string) | DLimit (l : list string).

Record preset := {
  pr_id : string;                    (* gymnasium id *)
  pr_class : string;                 (* the entry point *)
  pr_sys : sys_class; pr_supply : R; (* IdealVoltageSupply(u_nominal) *)
  pr_conv : conv_class; pr_motor : motor_class; pr_load : load_class; pr_tau : R;
  pr_refs : ref_class; pr_weights : dict R; (* WeightedSumOfErrors(reward_weights) *)
  pr_constraints : list dconstraint;
  pr_wrappers : list (list string);  (* CurrentSumProcessor(currents) appended to the user's wrappers *)
  pr_plots : list string }.

(** State names of the systems with one mechanical state (mechanical_load.py 92):
    physical_systems.py 295-303 with CURRENTS and VOLTAGES of dc_motor.py 60-61,
    dc_series_motor.py 46-47, dc_permanently_excited_motor.py 43-44, dc_shunt_motor.py 47;
    444-460; 574-592; 719-735; 889-916. *)
Definition motor_states (m : motor_class) : list string :=
  "omega" :: "torque" ::
  match m with
  | PermExDc | SeriesDc => ["i"; "u"; "u_sup"]
  | ExtExDc => ["i_a"; "i_e"; "u_a"; "u_e"; "u_sup"]
  | ShuntDc => ["i_a"; "i_e"; "u"; "u_sup"]
  | Pmsm | Synrm => ["i_a"; "i_b"; "i_c"; "i_sd"; "i_sq"; "u_a"; "u_b"; "u_c"; "u_sd"; "u_sq"; "epsilon"; "u_sup"]
  | Eesm => ["i_a"; "i_b"; "i_c"; "i_sd"; "i_sq"; "i_e"; "u_a"; "u_b"; "u_c"; "u_sd"; "u_sq"; "u_e"; "epsilon"; "u_sup"]
  | Scim => ["i_sa"; "i_sb"; "i_sc"; "i_sd"; "i_sq"; "u_sa"; "u_sb"; "u_sc"; "u_sd"; "u_sq"; "epsilon"; "u_sup"]
  | Dfim => ["i_sa"; "i_sb"; "i_sc"; "i_sd"; "i_sq"; "i_ra"; "i_rb"; "i_rc"; "i_rd"; "i_rq";
             "u_sa"; "u_sb"; "u_sc"; "u_sd"; "u_sq"; "u_ra"; "u_rb"; "u_rc"; "u_rd"; "u_rq"; "epsilon"; "u_sup"]
  end.
(** [_default_limits["u"]]: dc_motor.py 74, dc_permanently_excited_motor.py 56,
    dc_series_motor.py 60, dc_shunt_motor.py 60, permanent_magnet_synchronous_motor.py 95,
    synchronous_reluctance_motor.py 100-106, externally_excited_synchronous_motor.py 113,
    squirrel_cage_induction_motor.py 106, doubly_fed_induction_motor.py 115 *)
Definition default_u_limit (m : motor_class) : R :=
  match m with
  | PermExDc | ExtExDc | SeriesDc | ShuntDc => 60
  | Pmsm => 300 | Synrm => 80 | Eesm => 320 | Scim => 560 | Dfim => 720
  end.

(** src/gym_electric_motor/__init__.py 47-51 and
    envs/gym_dcm/permex_dc_motor_env/finite_sc_permex_dc_env.py 92-194 *)
Definition pr_Finite_SC_PermExDc_v0 : preset :=
  {| pr_id := "Finite-SC-PermExDc-v0"; pr_class := "FiniteSpeedControlDcPermanentlyExcitedMotorEnv"; pr_sys := DcSys; pr_supply := 60; pr_conv := (Single Fin4); pr_motor := PermExDc;
     pr_load := LPoly; pr_tau := 1 / 100000; pr_refs := (One {| rf_state := "omega"; rf_margin := None; rf_sigma := (1 / 1000, 1 / 200) |}); pr_weights := [("omega", 1)];
     pr_constraints := [DName "i"]; pr_wrappers := []; pr_plots := ["omega"] |}.
(** src/gym_electric_motor/__init__.py 52-56 and
    envs/gym_dcm/permex_dc_motor_env/cont_sc_permex_dc_env.py 92-193 *)
Definition pr_Cont_SC_PermExDc_v0 : preset :=
  {| pr_id := "Cont-SC-PermExDc-v0"; pr_class := "ContSpeedControlDcPermanentlyExcitedMotorEnv"; pr_sys := DcSys; pr_supply := 60; pr_conv := (Single Cont4); pr_motor := PermExDc;
     pr_load := LPoly; pr_tau := 1 / 10000; pr_refs := (One {| rf_state := "omega"; rf_margin := None; rf_sigma := (1 / 1000, 1 / 20) |}); pr_weights := [("omega", 1)];
     pr_constraints := [DName "i"]; pr_wrappers := []; pr_plots := ["omega"] |}.
(** src/gym_electric_motor/__init__.py 57-61 and
    envs/gym_dcm/permex_dc_motor_env/finite_tc_permex_dc_env.py 92-188 *)
Definition pr_Finite_TC_PermExDc_v0 : preset :=
  {| pr_id := "Finite-TC-PermExDc-v0"; pr_class := "FiniteTorqueControlDcPermanentlyExcitedMotorEnv"; pr_sys := DcSys; pr_supply := 60; pr_conv := (Single Fin4); pr_motor := PermExDc;
     pr_load := (LConst 100); pr_tau := 1 / 100000; pr_refs := (One {| rf_state := "torque"; rf_margin := None; rf_sigma := (1 / 100, 1 / 10) |}); pr_weights := [("torque", 1)];
     pr_constraints := [DName "i"]; pr_wrappers := []; pr_plots := ["torque"] |}.
(** src/gym_electric_motor/__init__.py 62-66 and
    envs/gym_dcm/permex_dc_motor_env/cont_tc_permex_dc_env.py 93-189 *)
Definition pr_Cont_TC_PermExDc_v0 : preset :=
  {| pr_id := "Cont-TC-PermExDc-v0"; pr_class := "ContTorqueControlDcPermanentlyExcitedMotorEnv"; pr_sys := DcSys; pr_supply := 60; pr_conv := (Single Cont4); pr_motor := PermExDc;
     pr_load := (LConst 100); pr_tau := 1 / 10000; pr_refs := (One {| rf_state := "torque"; rf_margin := None; rf_sigma := (1 / 100, 1 / 10) |}); pr_weights := [("torque", 1)];
     pr_constraints := [DName "i"]; pr_wrappers := []; pr_plots := ["torque"] |}.
(** src/gym_electric_motor/__init__.py 67-71 and
    envs/gym_dcm/permex_dc_motor_env/finite_cc_permex_dc_env.py 92-188 *)
Definition pr_Finite_CC_PermExDc_v0 : preset :=
  {| pr_id := "Finite-CC-PermExDc-v0"; pr_class := "FiniteCurrentControlDcPermanentlyExcitedMotorEnv"; pr_sys := DcSys; pr_supply := 60; pr_conv := (Single Fin4); pr_motor := PermExDc;
     pr_load := (LConst 100); pr_tau := 1 / 100000; pr_refs := (One {| rf_state := "i"; rf_margin := None; rf_sigma := (1 / 100, 1 / 10) |}); pr_weights := [("i", 1)];
     pr_constraints := [DName "i"]; pr_wrappers := []; pr_plots := ["i"] |}.
(** src/gym_electric_motor/__init__.py 72-76 and
    envs/gym_dcm/permex_dc_motor_env/cont_cc_permex_dc_env.py 92-188 *)
Definition pr_Cont_CC_PermExDc_v0 : preset :=
  {| pr_id := "Cont-CC-PermExDc-v0"; pr_class := "ContCurrentControlDcPermanentlyExcitedMotorEnv"; pr_sys := DcSys; pr_supply := 60; pr_conv := (Single Cont4); pr_motor := PermExDc;
     pr_load := (LConst 100); pr_tau := 1 / 10000; pr_refs := (One {| rf_state := "i"; rf_margin := None; rf_sigma := (1 / 100, 1 / 10) |}); pr_weights := [("i", 1)];
     pr_constraints := [DName "i"]; pr_wrappers := []; pr_plots := ["i"] |}.
(** src/gym_electric_motor/__init__.py 79-83 and
    envs/gym_dcm/extex_dc_motor_env/finite_sc_extex_dc_env.py 90-196 *)
Definition pr_Finite_SC_ExtExDc_v0 : preset :=
  {| pr_id := "Finite-SC-ExtExDc-v0"; pr_class := "FiniteSpeedControlDcExternallyExcitedMotorEnv"; pr_sys := DcSys; pr_supply := 60; pr_conv := (Multi true [Fin4; Fin4]); pr_motor := ExtExDc;
     pr_load := LPoly; pr_tau := 1 / 100000; pr_refs := (One {| rf_state := "omega"; rf_margin := None; rf_sigma := (1 / 1000, 1 / 10) |}); pr_weights := [("omega", 1)];
     pr_constraints := [DName "i_a"; DName "i_e"]; pr_wrappers := []; pr_plots := ["omega"] |}.
(** src/gym_electric_motor/__init__.py 84-88 and
    envs/gym_dcm/extex_dc_motor_env/cont_sc_extex_dc_env.py 90-195 *)
Definition pr_Cont_SC_ExtExDc_v0 : preset :=
  {| pr_id := "Cont-SC-ExtExDc-v0"; pr_class := "ContSpeedControlDcExternallyExcitedMotorEnv"; pr_sys := DcSys; pr_supply := 60; pr_conv := (Multi false [Cont4; Cont4]); pr_motor := ExtExDc;
     pr_load := LPoly; pr_tau := 1 / 10000; pr_refs := (One {| rf_state := "omega"; rf_margin := None; rf_sigma := (1 / 1000, 1 / 10) |}); pr_weights := [("omega", 1)];
     pr_constraints := [DName "i_a"; DName "i_e"]; pr_wrappers := []; pr_plots := ["omega"] |}.
(** src/gym_electric_motor/__init__.py 89-93 and
    envs/gym_dcm/extex_dc_motor_env/finite_tc_extex_dc_env.py 90-191 *)
Definition pr_Finite_TC_ExtExDc_v0 : preset :=
  {| pr_id := "Finite-TC-ExtExDc-v0"; pr_class := "FiniteTorqueControlDcExternallyExcitedMotorEnv"; pr_sys := DcSys; pr_supply := 60; pr_conv := (Multi true [Fin4; Fin4]); pr_motor := ExtExDc;
     pr_load := (LConst 100); pr_tau := 1 / 100000; pr_refs := (One {| rf_state := "torque"; rf_margin := None; rf_sigma := (1 / 1000, 1 / 10) |}); pr_weights := [("torque", 1)];
     pr_constraints := [DName "i_a"; DName "i_e"]; pr_wrappers := []; pr_plots := ["torque"] |}.
(** src/gym_electric_motor/__init__.py 94-98 and
    envs/gym_dcm/extex_dc_motor_env/cont_tc_extex_dc_env.py 90-193 *)
Definition pr_Cont_TC_ExtExDc_v0 : preset :=
  {| pr_id := "Cont-TC-ExtExDc-v0"; pr_class := "ContTorqueControlDcExternallyExcitedMotorEnv"; pr_sys := DcSys; pr_supply := 60; pr_conv := (Multi false [Cont4; Cont4]); pr_motor := ExtExDc;
     pr_load := (LConst 100); pr_tau := 1 / 10000; pr_refs := (One {| rf_state := "torque"; rf_margin := None; rf_sigma := (1 / 1000, 1 / 10) |}); pr_weights := [("torque", 1)];
     pr_constraints := [DName "i_a"; DName "i_e"]; pr_wrappers := []; pr_plots := ["torque"] |}.
(** src/gym_electric_motor/__init__.py 99-103 and
    envs/gym_dcm/extex_dc_motor_env/finite_cc_extex_dc_env.py 93-203 *)
Definition pr_Finite_CC_ExtExDc_v0 : preset :=
  {| pr_id := "Finite-CC-ExtExDc-v0"; pr_class := "FiniteCurrentControlDcExternallyExcitedMotorEnv"; pr_sys := DcSys; pr_supply := 60; pr_conv := (Multi true [Fin4; Fin4]); pr_motor := ExtExDc;
     pr_load := (LConst 100); pr_tau := 1 / 100000; pr_refs := (Several [{| rf_state := "i_a"; rf_margin := None; rf_sigma := (1 / 1000, 1 / 10) |}; {| rf_state := "i_e"; rf_margin := None; rf_sigma := (1 / 1000, 1 / 10) |}]); pr_weights := [("i_a", 1 / 2); ("i_e", 1 / 2)];
     pr_constraints := [DName "i_a"; DName "i_e"]; pr_wrappers := []; pr_plots := ["i_a"; "i_e"] |}.
(** src/gym_electric_motor/__init__.py 104-108 and
    envs/gym_dcm/extex_dc_motor_env/cont_cc_extex_dc_env.py 93-203 *)
Definition pr_Cont_CC_ExtExDc_v0 : preset :=
  {| pr_id := "Cont-CC-ExtExDc-v0"; pr_class := "ContCurrentControlDcExternallyExcitedMotorEnv"; pr_sys := DcSys; pr_supply := 60; pr_conv := (Multi false [Cont4; Cont4]); pr_motor := ExtExDc;
     pr_load := (LConst 100); pr_tau := 1 / 10000; pr_refs := (Several [{| rf_state := "i_a"; rf_margin := None; rf_sigma := (1 / 1000, 1 / 10) |}; {| rf_state := "i_e"; rf_margin := None; rf_sigma := (1 / 1000, 1 / 10) |}]); pr_weights := [("i_a", 1 / 2); ("i_e", 1 / 2)];
     pr_constraints := [DName "i_a"; DName "i_e"]; pr_wrappers := []; pr_plots := ["i_a"; "i_e"] |}.
(** src/gym_electric_motor/__init__.py 111-113 and
    envs/gym_dcm/series_dc_motor_env/finite_sc_series_dc_env.py 90-191 *)
Definition pr_Finite_SC_SeriesDc_v0 : preset :=
  {| pr_id := "Finite-SC-SeriesDc-v0"; pr_class := "FiniteSpeedControlDcSeriesMotorEnv"; pr_sys := DcSys; pr_supply := 60; pr_conv := (Single Fin4); pr_motor := SeriesDc;
     pr_load := LPoly; pr_tau := 1 / 100000; pr_refs := (One {| rf_state := "omega"; rf_margin := None; rf_sigma := (1 / 1000, 1 / 200) |}); pr_weights := [("omega", 1)];
     pr_constraints := [DName "i"]; pr_wrappers := []; pr_plots := ["omega"] |}.
(** src/gym_electric_motor/__init__.py 114-114 and
    envs/gym_dcm/series_dc_motor_env/cont_sc_series_dc_env.py 90-191 *)
Definition pr_Cont_SC_SeriesDc_v0 : preset :=
  {| pr_id := "Cont-SC-SeriesDc-v0"; pr_class := "ContSpeedControlDcSeriesMotorEnv"; pr_sys := DcSys; pr_supply := 60; pr_conv := (Single Cont4); pr_motor := SeriesDc;
     pr_load := LPoly; pr_tau := 1 / 10000; pr_refs := (One {| rf_state := "omega"; rf_margin := None; rf_sigma := (1 / 1000, 1 / 50) |}); pr_weights := [("omega", 1)];
     pr_constraints := [DName "i"]; pr_wrappers := []; pr_plots := ["omega"] |}.
(** src/gym_electric_motor/__init__.py 115-117 and
    envs/gym_dcm/series_dc_motor_env/finite_tc_series_dc_env.py 90-187 *)
Definition pr_Finite_TC_SeriesDc_v0 : preset :=
  {| pr_id := "Finite-TC-SeriesDc-v0"; pr_class := "FiniteTorqueControlDcSeriesMotorEnv"; pr_sys := DcSys; pr_supply := 420; pr_conv := (Single Fin4); pr_motor := SeriesDc;
     pr_load := (LConst 100); pr_tau := 1 / 100000; pr_refs := (One {| rf_state := "torque"; rf_margin := None; rf_sigma := (1 / 1000, 1 / 10) |}); pr_weights := [("torque", 1)];
     pr_constraints := [DName "i"]; pr_wrappers := []; pr_plots := ["torque"] |}.
(** src/gym_electric_motor/__init__.py 118-118 and
    envs/gym_dcm/series_dc_motor_env/cont_tc_series_dc_env.py 90-186 *)
Definition pr_Cont_TC_SeriesDc_v0 : preset :=
  {| pr_id := "Cont-TC-SeriesDc-v0"; pr_class := "ContTorqueControlDcSeriesMotorEnv"; pr_sys := DcSys; pr_supply := 60; pr_conv := (Single Cont4); pr_motor := SeriesDc;
     pr_load := (LConst 100); pr_tau := 1 / 10000; pr_refs := (One {| rf_state := "torque"; rf_margin := None; rf_sigma := (1 / 1000, 1 / 10) |}); pr_weights := [("torque", 1)];
     pr_constraints := [DName "i"]; pr_wrappers := []; pr_plots := ["torque"] |}.
(** src/gym_electric_motor/__init__.py 119-121 and
    envs/gym_dcm/series_dc_motor_env/finite_cc_series_dc_env.py 90-186 *)
Definition pr_Finite_CC_SeriesDc_v0 : preset :=
  {| pr_id := "Finite-CC-SeriesDc-v0"; pr_class := "FiniteCurrentControlDcSeriesMotorEnv"; pr_sys := DcSys; pr_supply := 420; pr_conv := (Single Fin4); pr_motor := SeriesDc;
     pr_load := (LConst 100); pr_tau := 1 / 100000; pr_refs := (One {| rf_state := "i"; rf_margin := None; rf_sigma := (1 / 1000, 1 / 10) |}); pr_weights := [("i", 1)];
     pr_constraints := [DName "i"]; pr_wrappers := []; pr_plots := ["i"] |}.
(** src/gym_electric_motor/__init__.py 122-122 and
    envs/gym_dcm/series_dc_motor_env/cont_cc_series_dc_env.py 90-187 *)
Definition pr_Cont_CC_SeriesDc_v0 : preset :=
  {| pr_id := "Cont-CC-SeriesDc-v0"; pr_class := "ContCurrentControlDcSeriesMotorEnv"; pr_sys := DcSys; pr_supply := 60; pr_conv := (Single Cont4); pr_motor := SeriesDc;
     pr_load := (LConst 100); pr_tau := 1 / 10000; pr_refs := (One {| rf_state := "i"; rf_margin := None; rf_sigma := (1 / 1000, 1 / 10) |}); pr_weights := [("i", 1)];
     pr_constraints := [DName "i"]; pr_wrappers := []; pr_plots := ["i"] |}.
(** src/gym_electric_motor/__init__.py 125-125 and
    envs/gym_dcm/shunt_dc_motor_env/finite_sc_shunt_dc_env.py 91-193 *)
Definition pr_Finite_SC_ShuntDc_v0 : preset :=
  {| pr_id := "Finite-SC-ShuntDc-v0"; pr_class := "FiniteSpeedControlDcShuntMotorEnv"; pr_sys := DcSys; pr_supply := 60; pr_conv := (Single Fin4); pr_motor := ShuntDc;
     pr_load := LPoly; pr_tau := 1 / 100000; pr_refs := (One {| rf_state := "omega"; rf_margin := None; rf_sigma := (1 / 1000, 1 / 200) |}); pr_weights := [("omega", 1)];
     pr_constraints := [DName "i_a"; DName "i_e"]; pr_wrappers := [["i_a"; "i_e"]]; pr_plots := ["omega"] |}.
(** src/gym_electric_motor/__init__.py 126-126 and
    envs/gym_dcm/shunt_dc_motor_env/cont_sc_shunt_dc_env.py 91-193 *)
Definition pr_Cont_SC_ShuntDc_v0 : preset :=
  {| pr_id := "Cont-SC-ShuntDc-v0"; pr_class := "ContSpeedControlDcShuntMotorEnv"; pr_sys := DcSys; pr_supply := 60; pr_conv := (Single Cont4); pr_motor := ShuntDc;
     pr_load := LPoly; pr_tau := 1 / 10000; pr_refs := (One {| rf_state := "omega"; rf_margin := None; rf_sigma := (1 / 1000, 3 / 100) |}); pr_weights := [("omega", 1)];
     pr_constraints := [DName "i_a"; DName "i_e"]; pr_wrappers := [["i_a"; "i_e"]]; pr_plots := ["omega"] |}.
(** src/gym_electric_motor/__init__.py 127-127 and
    envs/gym_dcm/shunt_dc_motor_env/finite_tc_shunt_dc_env.py 91-187 *)
Definition pr_Finite_TC_ShuntDc_v0 : preset :=
  {| pr_id := "Finite-TC-ShuntDc-v0"; pr_class := "FiniteTorqueControlDcShuntMotorEnv"; pr_sys := DcSys; pr_supply := 60; pr_conv := (Single Fin4); pr_motor := ShuntDc;
     pr_load := (LConst 100); pr_tau := 1 / 100000; pr_refs := (One {| rf_state := "torque"; rf_margin := None; rf_sigma := (1 / 1000, 1 / 10) |}); pr_weights := [("torque", 1)];
     pr_constraints := [DName "i_a"; DName "i_e"]; pr_wrappers := [["i_a"; "i_e"]]; pr_plots := ["torque"] |}.
(** src/gym_electric_motor/__init__.py 128-128 and
    envs/gym_dcm/shunt_dc_motor_env/cont_tc_shunt_dc_env.py 91-188 *)
Definition pr_Cont_TC_ShuntDc_v0 : preset :=
  {| pr_id := "Cont-TC-ShuntDc-v0"; pr_class := "ContTorqueControlDcShuntMotorEnv"; pr_sys := DcSys; pr_supply := 60; pr_conv := (Single Cont4); pr_motor := ShuntDc;
     pr_load := (LConst 230); pr_tau := 1 / 10000; pr_refs := (One {| rf_state := "torque"; rf_margin := (Some (0, 4 / 5)); rf_sigma := (1 / 1000, 1 / 10) |}); pr_weights := [("torque", 1)];
     pr_constraints := [DName "i_a"; DName "i_e"]; pr_wrappers := [["i_a"; "i_e"]]; pr_plots := ["torque"] |}.
(** src/gym_electric_motor/__init__.py 129-131 and
    envs/gym_dcm/shunt_dc_motor_env/finite_cc_shunt_dc_env.py 91-194 *)
Definition pr_Finite_CC_ShuntDc_v0 : preset :=
  {| pr_id := "Finite-CC-ShuntDc-v0"; pr_class := "FiniteCurrentControlDcShuntMotorEnv"; pr_sys := DcSys; pr_supply := 60; pr_conv := (Single Fin4); pr_motor := ShuntDc;
     pr_load := (LConst 100); pr_tau := 1 / 100000; pr_refs := (One {| rf_state := "i_a"; rf_margin := None; rf_sigma := (1 / 1000, 1 / 10) |}); pr_weights := [("i_a", 1)];
     pr_constraints := [DName "i_a"; DName "i_e"]; pr_wrappers := [["i_a"; "i_e"]]; pr_plots := ["i_a"; "i_e"] |}.
(** src/gym_electric_motor/__init__.py 132-132 and
    envs/gym_dcm/shunt_dc_motor_env/cont_cc_shunt_dc_env.py 91-189 *)
Definition pr_Cont_CC_ShuntDc_v0 : preset :=
  {| pr_id := "Cont-CC-ShuntDc-v0"; pr_class := "ContCurrentControlDcShuntMotorEnv"; pr_sys := DcSys; pr_supply := 60; pr_conv := (Single Cont4); pr_motor := ShuntDc;
     pr_load := (LConst 100); pr_tau := 1 / 10000; pr_refs := (One {| rf_state := "i_a"; rf_margin := None; rf_sigma := (1 / 1000, 1 / 10) |}); pr_weights := [("i_a", 1)];
     pr_constraints := [DName "i_a"; DName "i_e"]; pr_wrappers := [["i_a"; "i_e"]]; pr_plots := ["i_a"] |}.
(** src/gym_electric_motor/__init__.py 135-139 and
    envs/gym_pmsm/finite_sc_pmsm_env.py 91-192 *)
Definition pr_Finite_SC_PMSM_v0 : preset :=
  {| pr_id := "Finite-SC-PMSM-v0"; pr_class := "FiniteSpeedControlPermanentMagnetSynchronousMotorEnv"; pr_sys := SyncSys; pr_supply := 420; pr_conv := (Single FinB6); pr_motor := Pmsm;
     pr_load := LPoly; pr_tau := 1 / 100000; pr_refs := (One {| rf_state := "omega"; rf_margin := None; rf_sigma := (1 / 1000, 1 / 10) |}); pr_weights := [("omega", 1)];
     pr_constraints := [DSquared ["i_sq"; "i_sd"]]; pr_wrappers := []; pr_plots := ["omega"] |}.
(** src/gym_electric_motor/__init__.py 140-144 and
    envs/gym_pmsm/finite_tc_pmsm_env.py 91-187 *)
Definition pr_Finite_TC_PMSM_v0 : preset :=
  {| pr_id := "Finite-TC-PMSM-v0"; pr_class := "FiniteTorqueControlPermanentMagnetSynchronousMotorEnv"; pr_sys := SyncSys; pr_supply := 420; pr_conv := (Single FinB6); pr_motor := Pmsm;
     pr_load := (LConst 100); pr_tau := 1 / 100000; pr_refs := (One {| rf_state := "torque"; rf_margin := None; rf_sigma := (1 / 1000, 1 / 10) |}); pr_weights := [("torque", 1)];
     pr_constraints := [DSquared ["i_sq"; "i_sd"]]; pr_wrappers := []; pr_plots := ["torque"] |}.
(** src/gym_electric_motor/__init__.py 145-149 and
    envs/gym_pmsm/finite_cc_pmsm_env.py 94-195 *)
Definition pr_Finite_CC_PMSM_v0 : preset :=
  {| pr_id := "Finite-CC-PMSM-v0"; pr_class := "FiniteCurrentControlPermanentMagnetSynchronousMotorEnv"; pr_sys := SyncSys; pr_supply := 420; pr_conv := (Single FinB6); pr_motor := Pmsm;
     pr_load := (LConst 100); pr_tau := 1 / 100000; pr_refs := (Several [{| rf_state := "i_sd"; rf_margin := None; rf_sigma := (1 / 1000, 1 / 10) |}; {| rf_state := "i_sq"; rf_margin := None; rf_sigma := (1 / 1000, 1 / 10) |}]); pr_weights := [("i_sd", 1 / 2); ("i_sq", 1 / 2)];
     pr_constraints := [DSquared ["i_sq"; "i_sd"]]; pr_wrappers := []; pr_plots := ["i_sd"; "i_sq"] |}.
(** src/gym_electric_motor/__init__.py 150-154 and
    envs/gym_pmsm/cont_cc_pmsm_env.py 94-190 *)
Definition pr_Cont_CC_PMSM_v0 : preset :=
  {| pr_id := "Cont-CC-PMSM-v0"; pr_class := "ContCurrentControlPermanentMagnetSynchronousMotorEnv"; pr_sys := SyncSys; pr_supply := 300; pr_conv := (Single ContB6); pr_motor := Pmsm;
     pr_load := (LConst 100); pr_tau := 1 / 10000; pr_refs := (Several [{| rf_state := "i_sd"; rf_margin := None; rf_sigma := (1 / 1000, 1 / 10) |}; {| rf_state := "i_sq"; rf_margin := None; rf_sigma := (1 / 1000, 1 / 10) |}]); pr_weights := [("i_sd", 1 / 2); ("i_sq", 1 / 2)];
     pr_constraints := [DSquared ["i_sq"; "i_sd"]]; pr_wrappers := []; pr_plots := ["i_sd"; "i_sq"] |}.
(** src/gym_electric_motor/__init__.py 155-159 and
    envs/gym_pmsm/cont_tc_pmsm_env.py 94-185 *)
Definition pr_Cont_TC_PMSM_v0 : preset :=
  {| pr_id := "Cont-TC-PMSM-v0"; pr_class := "ContTorqueControlPermanentMagnetSynchronousMotorEnv"; pr_sys := SyncSys; pr_supply := 420; pr_conv := (Single ContB6); pr_motor := Pmsm;
     pr_load := (LConst 100); pr_tau := 1 / 10000; pr_refs := (One {| rf_state := "torque"; rf_margin := None; rf_sigma := (1 / 1000, 1 / 10) |}); pr_weights := [("torque", 1)];
     pr_constraints := [DSquared ["i_sq"; "i_sd"]]; pr_wrappers := []; pr_plots := ["torque"] |}.
(** src/gym_electric_motor/__init__.py 160-164 and
    envs/gym_pmsm/cont_sc_pmsm_env.py 91-187 *)
Definition pr_Cont_SC_PMSM_v0 : preset :=
  {| pr_id := "Cont-SC-PMSM-v0"; pr_class := "ContSpeedControlPermanentMagnetSynchronousMotorEnv"; pr_sys := SyncSys; pr_supply := 420; pr_conv := (Single ContB6); pr_motor := Pmsm;
     pr_load := LPoly; pr_tau := 1 / 10000; pr_refs := (One {| rf_state := "omega"; rf_margin := None; rf_sigma := (1 / 1000, 1 / 10) |}); pr_weights := [("omega", 1)];
     pr_constraints := [DSquared ["i_sq"; "i_sd"]]; pr_wrappers := []; pr_plots := ["omega"] |}.
(** src/gym_electric_motor/__init__.py 167-171 and
    envs/gym_eesm/finite_sc_eesm_env.py 93-193 *)
Definition pr_Finite_SC_EESM_v0 : preset :=
  {| pr_id := "Finite-SC-EESM-v0"; pr_class := "FiniteSpeedControlExternallyExcitedSynchronousMotorEnv"; pr_sys := EesmSys; pr_supply := 420; pr_conv := (Multi true [FinB6; Fin4]); pr_motor := Eesm;
     pr_load := LPoly; pr_tau := 1 / 100000; pr_refs := (One {| rf_state := "omega"; rf_margin := None; rf_sigma := (1 / 1000, 1 / 10) |}); pr_weights := [("omega", 1)];
     pr_constraints := [DSquared ["i_sq"; "i_sd"]; DLimit ["i_e"]]; pr_wrappers := []; pr_plots := ["omega"] |}.
(** src/gym_electric_motor/__init__.py 172-176 and
    envs/gym_eesm/finite_tc_eesm_env.py 93-193 *)
Definition pr_Finite_TC_EESM_v0 : preset :=
  {| pr_id := "Finite-TC-EESM-v0"; pr_class := "FiniteTorqueControlExternallyExcitedSynchronousMotorEnv"; pr_sys := EesmSys; pr_supply := 420; pr_conv := (Multi true [FinB6; Fin4]); pr_motor := Eesm;
     pr_load := (LConst 100); pr_tau := 1 / 100000; pr_refs := (One {| rf_state := "torque"; rf_margin := None; rf_sigma := (1 / 1000, 1 / 10) |}); pr_weights := [("torque", 1)];
     pr_constraints := [DSquared ["i_sq"; "i_sd"]; DLimit ["i_e"]]; pr_wrappers := []; pr_plots := ["torque"] |}.
(** src/gym_electric_motor/__init__.py 177-181 and
    envs/gym_eesm/finite_cc_eesm_env.py 96-201 *)
Definition pr_Finite_CC_EESM_v0 : preset :=
  {| pr_id := "Finite-CC-EESM-v0"; pr_class := "FiniteCurrentControlExternallyExcitedSynchronousMotorEnv"; pr_sys := EesmSys; pr_supply := 420; pr_conv := (Multi true [FinB6; Fin4]); pr_motor := Eesm;
     pr_load := (LConst 100); pr_tau := 1 / 100000; pr_refs := (Several [{| rf_state := "i_sd"; rf_margin := None; rf_sigma := (1 / 1000, 1 / 10) |}; {| rf_state := "i_sq"; rf_margin := None; rf_sigma := (1 / 1000, 1 / 10) |}; {| rf_state := "i_e"; rf_margin := None; rf_sigma := (1 / 1000, 1 / 10) |}]); pr_weights := [("i_sd", 1 / 3); ("i_sq", 1 / 3); ("i_e", 1 / 3)];
     pr_constraints := [DSquared ["i_sq"; "i_sd"]; DLimit ["i_e"]]; pr_wrappers := []; pr_plots := ["i_sd"; "i_sq"; "i_e"] |}.
(** src/gym_electric_motor/__init__.py 182-186 and
    envs/gym_eesm/cont_cc_eesm_env.py 96-201 *)
Definition pr_Cont_CC_EESM_v0 : preset :=
  {| pr_id := "Cont-CC-EESM-v0"; pr_class := "ContCurrentControlExternallyExcitedSynchronousMotorEnv"; pr_sys := EesmSys; pr_supply := 300; pr_conv := (Multi false [ContB6; Cont4]); pr_motor := Eesm;
     pr_load := (LConst 100); pr_tau := 1 / 10000; pr_refs := (Several [{| rf_state := "i_sd"; rf_margin := None; rf_sigma := (1 / 1000, 1 / 10) |}; {| rf_state := "i_sq"; rf_margin := None; rf_sigma := (1 / 1000, 1 / 10) |}; {| rf_state := "i_e"; rf_margin := (Some (0, 1)); rf_sigma := (1 / 1000, 1 / 10) |}]); pr_weights := [("i_sd", 1 / 3); ("i_sq", 1 / 3); ("i_e", 1 / 3)];
     pr_constraints := [DSquared ["i_sq"; "i_sd"]; DLimit ["i_e"]]; pr_wrappers := []; pr_plots := ["i_sd"; "i_sq"; "i_e"] |}.
(** src/gym_electric_motor/__init__.py 187-191 and
    envs/gym_eesm/cont_tc_eesm_env.py 98-198 *)
Definition pr_Cont_TC_EESM_v0 : preset :=
  {| pr_id := "Cont-TC-EESM-v0"; pr_class := "ContTorqueControlExternallyExcitedSynchronousMotorEnv"; pr_sys := EesmSys; pr_supply := 420; pr_conv := (Multi false [ContB6; Cont4]); pr_motor := Eesm;
     pr_load := (LConst 100); pr_tau := 1 / 10000; pr_refs := (One {| rf_state := "torque"; rf_margin := None; rf_sigma := (1 / 1000, 1 / 10) |}); pr_weights := [("torque", 1)];
     pr_constraints := [DSquared ["i_sq"; "i_sd"]; DLimit ["i_e"]]; pr_wrappers := []; pr_plots := ["torque"] |}.
(** src/gym_electric_motor/__init__.py 192-196 and
    envs/gym_eesm/cont_sc_eesm_env.py 94-199 *)
Definition pr_Cont_SC_EESM_v0 : preset :=
  {| pr_id := "Cont-SC-EESM-v0"; pr_class := "ContSpeedControlExternallyExcitedSynchronousMotorEnv"; pr_sys := EesmSys; pr_supply := 420; pr_conv := (Multi false [ContB6; Cont4]); pr_motor := Eesm;
     pr_load := LPoly; pr_tau := 1 / 10000; pr_refs := (One {| rf_state := "omega"; rf_margin := None; rf_sigma := (1 / 1000, 1 / 10) |}); pr_weights := [("omega", 1)];
     pr_constraints := [DSquared ["i_sq"; "i_sd"]; DLimit ["i_e"]]; pr_wrappers := []; pr_plots := ["omega"] |}.
(** src/gym_electric_motor/__init__.py 198-202 and
    envs/gym_synrm/finite_sc_synrm_env.py 91-193 *)
Definition pr_Finite_SC_SynRM_v0 : preset :=
  {| pr_id := "Finite-SC-SynRM-v0"; pr_class := "FiniteSpeedControlSynchronousReluctanceMotorEnv"; pr_sys := SyncSys; pr_supply := 420; pr_conv := (Single FinB6); pr_motor := Synrm;
     pr_load := LPoly; pr_tau := 1 / 100000; pr_refs := (One {| rf_state := "omega"; rf_margin := None; rf_sigma := (1 / 1000, 1 / 100) |}); pr_weights := [("omega", 1)];
     pr_constraints := [DSquared ["i_sq"; "i_sd"]]; pr_wrappers := []; pr_plots := ["omega"] |}.
(** src/gym_electric_motor/__init__.py 203-207 and
    envs/gym_synrm/finite_tc_synrm_env.py 91-187 *)
Definition pr_Finite_TC_SynRM_v0 : preset :=
  {| pr_id := "Finite-TC-SynRM-v0"; pr_class := "FiniteTorqueControlSynchronousReluctanceMotorEnv"; pr_sys := SyncSys; pr_supply := 420; pr_conv := (Single FinB6); pr_motor := Synrm;
     pr_load := (LConst 100); pr_tau := 1 / 100000; pr_refs := (One {| rf_state := "torque"; rf_margin := None; rf_sigma := (1 / 1000, 1 / 10) |}); pr_weights := [("torque", 1)];
     pr_constraints := [DSquared ["i_sq"; "i_sd"]]; pr_wrappers := []; pr_plots := ["torque"] |}.
(** src/gym_electric_motor/__init__.py 208-212 and
    envs/gym_synrm/finite_cc_synrm_env.py 94-195 *)
Definition pr_Finite_CC_SynRM_v0 : preset :=
  {| pr_id := "Finite-CC-SynRM-v0"; pr_class := "FiniteCurrentControlSynchronousReluctanceMotorEnv"; pr_sys := SyncSys; pr_supply := 420; pr_conv := (Single FinB6); pr_motor := Synrm;
     pr_load := (LConst 100); pr_tau := 1 / 100000; pr_refs := (Several [{| rf_state := "i_sd"; rf_margin := None; rf_sigma := (1 / 1000, 1 / 10) |}; {| rf_state := "i_sq"; rf_margin := None; rf_sigma := (1 / 1000, 1 / 10) |}]); pr_weights := [("i_sd", 1 / 2); ("i_sq", 1 / 2)];
     pr_constraints := [DSquared ["i_sq"; "i_sd"]]; pr_wrappers := []; pr_plots := ["i_sd"; "i_sq"] |}.
(** src/gym_electric_motor/__init__.py 213-217 and
    envs/gym_synrm/cont_cc_synrm_env.py 94-190 *)
Definition pr_Cont_CC_SynRM_v0 : preset :=
  {| pr_id := "Cont-CC-SynRM-v0"; pr_class := "ContCurrentControlSynchronousReluctanceMotorEnv"; pr_sys := SyncSys; pr_supply := 420; pr_conv := (Single ContB6); pr_motor := Synrm;
     pr_load := (LConst 100); pr_tau := 1 / 10000; pr_refs := (Several [{| rf_state := "i_sd"; rf_margin := None; rf_sigma := (1 / 1000, 1 / 10) |}; {| rf_state := "i_sq"; rf_margin := None; rf_sigma := (1 / 1000, 1 / 10) |}]); pr_weights := [("i_sd", 1 / 2); ("i_sq", 1 / 2)];
     pr_constraints := [DSquared ["i_sq"; "i_sd"]]; pr_wrappers := []; pr_plots := ["i_sd"; "i_sq"] |}.
(** src/gym_electric_motor/__init__.py 218-222 and
    envs/gym_synrm/cont_tc_synrm_env.py 94-185 *)
Definition pr_Cont_TC_SynRM_v0 : preset :=
  {| pr_id := "Cont-TC-SynRM-v0"; pr_class := "ContTorqueControlSynchronousReluctanceMotorEnv"; pr_sys := SyncSys; pr_supply := 420; pr_conv := (Single ContB6); pr_motor := Synrm;
     pr_load := (LConst 100); pr_tau := 1 / 10000; pr_refs := (One {| rf_state := "torque"; rf_margin := None; rf_sigma := (1 / 1000, 1 / 10) |}); pr_weights := [("torque", 1)];
     pr_constraints := [DSquared ["i_sq"; "i_sd"]]; pr_wrappers := []; pr_plots := ["torque"] |}.
(** src/gym_electric_motor/__init__.py 223-227 and
    envs/gym_synrm/cont_sc_synrm_env.py 91-187 *)
Definition pr_Cont_SC_SynRM_v0 : preset :=
  {| pr_id := "Cont-SC-SynRM-v0"; pr_class := "ContSpeedControlSynchronousReluctanceMotorEnv"; pr_sys := SyncSys; pr_supply := 420; pr_conv := (Single ContB6); pr_motor := Synrm;
     pr_load := LPoly; pr_tau := 1 / 10000; pr_refs := (One {| rf_state := "omega"; rf_margin := None; rf_sigma := (1 / 1000, 1 / 100) |}); pr_weights := [("omega", 1)];
     pr_constraints := [DSquared ["i_sq"; "i_sd"]]; pr_wrappers := []; pr_plots := ["omega"] |}.
(** src/gym_electric_motor/__init__.py 230-234 and
    envs/gym_im/squirrel_cage_induction_motor_envs/finite_sc_scim_env.py 98-200 *)
Definition pr_Finite_SC_SCIM_v0 : preset :=
  {| pr_id := "Finite-SC-SCIM-v0"; pr_class := "FiniteSpeedControlSquirrelCageInductionMotorEnv"; pr_sys := ScimSys; pr_supply := 420; pr_conv := (Single FinB6); pr_motor := Scim;
     pr_load := LPoly; pr_tau := 1 / 100000; pr_refs := (One {| rf_state := "omega"; rf_margin := None; rf_sigma := (1 / 1000, 1 / 100) |}); pr_weights := [("omega", 1)];
     pr_constraints := [DSquared ["i_sq"; "i_sd"]]; pr_wrappers := []; pr_plots := ["omega"] |}.
(** src/gym_electric_motor/__init__.py 235-239 and
    envs/gym_im/squirrel_cage_induction_motor_envs/finite_tc_scim_env.py 98-194 *)
Definition pr_Finite_TC_SCIM_v0 : preset :=
  {| pr_id := "Finite-TC-SCIM-v0"; pr_class := "FiniteTorqueControlSquirrelCageInductionMotorEnv"; pr_sys := ScimSys; pr_supply := 420; pr_conv := (Single FinB6); pr_motor := Scim;
     pr_load := (LConst 100); pr_tau := 1 / 100000; pr_refs := (One {| rf_state := "torque"; rf_margin := None; rf_sigma := (1 / 1000, 1 / 10) |}); pr_weights := [("torque", 1)];
     pr_constraints := [DSquared ["i_sq"; "i_sd"]]; pr_wrappers := []; pr_plots := ["torque"] |}.
(** src/gym_electric_motor/__init__.py 240-244 and
    envs/gym_im/squirrel_cage_induction_motor_envs/finite_cc_scim_env.py 101-202 *)
Definition pr_Finite_CC_SCIM_v0 : preset :=
  {| pr_id := "Finite-CC-SCIM-v0"; pr_class := "FiniteCurrentControlSquirrelCageInductionMotorEnv"; pr_sys := ScimSys; pr_supply := 420; pr_conv := (Single FinB6); pr_motor := Scim;
     pr_load := (LConst 100); pr_tau := 1 / 100000; pr_refs := (Several [{| rf_state := "i_sd"; rf_margin := None; rf_sigma := (1 / 1000, 1 / 10) |}; {| rf_state := "i_sq"; rf_margin := None; rf_sigma := (1 / 1000, 1 / 10) |}]); pr_weights := [("i_sd", 1 / 2); ("i_sq", 1 / 2)];
     pr_constraints := [DSquared ["i_sq"; "i_sd"]]; pr_wrappers := []; pr_plots := ["i_sd"; "i_sq"] |}.
(** src/gym_electric_motor/__init__.py 245-249 and
    envs/gym_im/squirrel_cage_induction_motor_envs/cont_cc_scim_env.py 101-197 *)
Definition pr_Cont_CC_SCIM_v0 : preset :=
  {| pr_id := "Cont-CC-SCIM-v0"; pr_class := "ContCurrentControlSquirrelCageInductionMotorEnv"; pr_sys := ScimSys; pr_supply := 420; pr_conv := (Single ContB6); pr_motor := Scim;
     pr_load := (LConst 100); pr_tau := 1 / 10000; pr_refs := (Several [{| rf_state := "i_sd"; rf_margin := None; rf_sigma := (1 / 1000, 1 / 10) |}; {| rf_state := "i_sq"; rf_margin := None; rf_sigma := (1 / 1000, 1 / 10) |}]); pr_weights := [("i_sd", 1 / 2); ("i_sq", 1 / 2)];
     pr_constraints := [DSquared ["i_sq"; "i_sd"]]; pr_wrappers := []; pr_plots := ["i_sd"; "i_sq"] |}.
(** src/gym_electric_motor/__init__.py 250-254 and
    envs/gym_im/squirrel_cage_induction_motor_envs/cont_tc_scim_env.py 101-192 *)
Definition pr_Cont_TC_SCIM_v0 : preset :=
  {| pr_id := "Cont-TC-SCIM-v0"; pr_class := "ContTorqueControlSquirrelCageInductionMotorEnv"; pr_sys := ScimSys; pr_supply := 420; pr_conv := (Single ContB6); pr_motor := Scim;
     pr_load := (LConst 100); pr_tau := 1 / 10000; pr_refs := (One {| rf_state := "torque"; rf_margin := None; rf_sigma := (1 / 1000, 1 / 10) |}); pr_weights := [("torque", 1)];
     pr_constraints := [DSquared ["i_sq"; "i_sd"]]; pr_wrappers := []; pr_plots := ["torque"] |}.
(** src/gym_electric_motor/__init__.py 255-257 and
    envs/gym_im/squirrel_cage_induction_motor_envs/cont_sc_scim_env.py 98-195 *)
Definition pr_Cont_SC_SCIM_v0 : preset :=
  {| pr_id := "Cont-SC-SCIM-v0"; pr_class := "ContSpeedControlSquirrelCageInductionMotorEnv"; pr_sys := ScimSys; pr_supply := 420; pr_conv := (Single ContB6); pr_motor := Scim;
     pr_load := LPoly; pr_tau := 1 / 10000; pr_refs := (One {| rf_state := "omega"; rf_margin := None; rf_sigma := (1 / 1000, 1 / 100) |}); pr_weights := [("omega", 1)];
     pr_constraints := [DSquared ["i_sq"; "i_sd"]]; pr_wrappers := []; pr_plots := ["omega"] |}.
(** src/gym_electric_motor/__init__.py 260-264 and
    envs/gym_im/doubly_fed_induction_motor_envs/finite_sc_dfim_env.py 100-205 *)
Definition pr_Finite_SC_DFIM_v0 : preset :=
  {| pr_id := "Finite-SC-DFIM-v0"; pr_class := "FiniteSpeedControlDoublyFedInductionMotorEnv"; pr_sys := DfimSys; pr_supply := 420; pr_conv := (Multi true [FinB6; FinB6]); pr_motor := Dfim;
     pr_load := LPoly; pr_tau := 1 / 100000; pr_refs := (One {| rf_state := "omega"; rf_margin := None; rf_sigma := (1 / 1000, 1 / 100) |}); pr_weights := [("omega", 1)];
     pr_constraints := [DSquared ["i_sq"; "i_sd"]]; pr_wrappers := []; pr_plots := ["omega"] |}.
(** src/gym_electric_motor/__init__.py 265-269 and
    envs/gym_im/doubly_fed_induction_motor_envs/finite_tc_dfim_env.py 100-200 *)
Definition pr_Finite_TC_DFIM_v0 : preset :=
  {| pr_id := "Finite-TC-DFIM-v0"; pr_class := "FiniteTorqueControlDoublyFedInductionMotorEnv"; pr_sys := DfimSys; pr_supply := 420; pr_conv := (Multi true [FinB6; FinB6]); pr_motor := Dfim;
     pr_load := (LConst 100); pr_tau := 1 / 100000; pr_refs := (One {| rf_state := "torque"; rf_margin := None; rf_sigma := (1 / 1000, 1 / 10) |}); pr_weights := [("torque", 1)];
     pr_constraints := [DSquared ["i_sq"; "i_sd"]]; pr_wrappers := []; pr_plots := ["torque"] |}.
(** src/gym_electric_motor/__init__.py 270-274 and
    envs/gym_im/doubly_fed_induction_motor_envs/finite_cc_dfim_env.py 103-208 *)
Definition pr_Finite_CC_DFIM_v0 : preset :=
  {| pr_id := "Finite-CC-DFIM-v0"; pr_class := "FiniteCurrentControlDoublyFedInductionMotorEnv"; pr_sys := DfimSys; pr_supply := 420; pr_conv := (Multi true [FinB6; FinB6]); pr_motor := Dfim;
     pr_load := (LConst 100); pr_tau := 1 / 100000; pr_refs := (Several [{| rf_state := "i_sd"; rf_margin := None; rf_sigma := (1 / 1000, 1 / 10) |}; {| rf_state := "i_sq"; rf_margin := None; rf_sigma := (1 / 1000, 1 / 10) |}]); pr_weights := [("i_sd", 1 / 2); ("i_sq", 1 / 2)];
     pr_constraints := [DSquared ["i_sq"; "i_sd"]]; pr_wrappers := []; pr_plots := ["i_sd"; "i_sq"] |}.
(** src/gym_electric_motor/__init__.py 275-277 and
    envs/gym_im/doubly_fed_induction_motor_envs/cont_cc_dfim_env.py 103-208 *)
Definition pr_Cont_CC_DFIM_v0 : preset :=
  {| pr_id := "Cont-CC-DFIM-v0"; pr_class := "ContCurrentControlDoublyFedInductionMotorEnv"; pr_sys := DfimSys; pr_supply := 420; pr_conv := (Multi false [ContB6; ContB6]); pr_motor := Dfim;
     pr_load := (LConst 100); pr_tau := 1 / 10000; pr_refs := (Several [{| rf_state := "i_sd"; rf_margin := None; rf_sigma := (1 / 1000, 1 / 10) |}; {| rf_state := "i_sq"; rf_margin := None; rf_sigma := (1 / 1000, 1 / 10) |}]); pr_weights := [("i_sd", 1 / 2); ("i_sq", 1 / 2)];
     pr_constraints := [DSquared ["i_sq"; "i_sd"]]; pr_wrappers := []; pr_plots := ["i_sd"; "i_sq"] |}.
(** src/gym_electric_motor/__init__.py 278-280 and
    envs/gym_im/doubly_fed_induction_motor_envs/cont_tc_dfim_env.py 103-203 *)
Definition pr_Cont_TC_DFIM_v0 : preset :=
  {| pr_id := "Cont-TC-DFIM-v0"; pr_class := "ContTorqueControlDoublyFedInductionMotorEnv"; pr_sys := DfimSys; pr_supply := 420; pr_conv := (Multi false [ContB6; ContB6]); pr_motor := Dfim;
     pr_load := (LConst 100); pr_tau := 1 / 10000; pr_refs := (One {| rf_state := "torque"; rf_margin := None; rf_sigma := (1 / 1000, 1 / 10) |}); pr_weights := [("torque", 1)];
     pr_constraints := [DSquared ["i_sq"; "i_sd"]]; pr_wrappers := []; pr_plots := ["torque"] |}.
(** src/gym_electric_motor/__init__.py 281-283 and
    envs/gym_im/doubly_fed_induction_motor_envs/cont_sc_dfim_env.py 100-205 *)
Definition pr_Cont_SC_DFIM_v0 : preset :=
  {| pr_id := "Cont-SC-DFIM-v0"; pr_class := "ContSpeedControlDoublyFedInductionMotorEnv"; pr_sys := DfimSys; pr_supply := 420; pr_conv := (Multi false [ContB6; ContB6]); pr_motor := Dfim;
     pr_load := LPoly; pr_tau := 1 / 10000; pr_refs := (One {| rf_state := "omega"; rf_margin := None; rf_sigma := (1 / 1000, 1 / 100) |}); pr_weights := [("omega", 1)];
     pr_constraints := [DSquared ["i_sq"; "i_sd"]]; pr_wrappers := []; pr_plots := ["omega"] |}.
(** Every environment id the package registers, __init__.py 47-283. *)
Definition presets : list preset :=
  [pr_Finite_SC_PermExDc_v0; pr_Cont_SC_PermExDc_v0; pr_Finite_TC_PermExDc_v0; pr_Cont_TC_PermExDc_v0; pr_Finite_CC_PermExDc_v0; pr_Cont_CC_PermExDc_v0;
   pr_Finite_SC_ExtExDc_v0; pr_Cont_SC_ExtExDc_v0; pr_Finite_TC_ExtExDc_v0; pr_Cont_TC_ExtExDc_v0; pr_Finite_CC_ExtExDc_v0; pr_Cont_CC_ExtExDc_v0;
   pr_Finite_SC_SeriesDc_v0; pr_Cont_SC_SeriesDc_v0; pr_Finite_TC_SeriesDc_v0; pr_Cont_TC_SeriesDc_v0; pr_Finite_CC_SeriesDc_v0; pr_Cont_CC_SeriesDc_v0;
   pr_Finite_SC_ShuntDc_v0; pr_Cont_SC_ShuntDc_v0; pr_Finite_TC_ShuntDc_v0; pr_Cont_TC_ShuntDc_v0; pr_Finite_CC_ShuntDc_v0; pr_Cont_CC_ShuntDc_v0;
   pr_Finite_SC_PMSM_v0; pr_Finite_TC_PMSM_v0; pr_Finite_CC_PMSM_v0; pr_Cont_CC_PMSM_v0; pr_Cont_TC_PMSM_v0; pr_Cont_SC_PMSM_v0;
   pr_Finite_SC_EESM_v0; pr_Finite_TC_EESM_v0; pr_Finite_CC_EESM_v0; pr_Cont_CC_EESM_v0; pr_Cont_TC_EESM_v0; pr_Cont_SC_EESM_v0;
   pr_Finite_SC_SynRM_v0; pr_Finite_TC_SynRM_v0; pr_Finite_CC_SynRM_v0; pr_Cont_CC_SynRM_v0; pr_Cont_TC_SynRM_v0; pr_Cont_SC_SynRM_v0;
   pr_Finite_SC_SCIM_v0; pr_Finite_TC_SCIM_v0; pr_Finite_CC_SCIM_v0; pr_Cont_CC_SCIM_v0; pr_Cont_TC_SCIM_v0; pr_Cont_SC_SCIM_v0;
   pr_Finite_SC_DFIM_v0; pr_Finite_TC_DFIM_v0; pr_Finite_CC_DFIM_v0; pr_Cont_CC_DFIM_v0; pr_Cont_TC_DFIM_v0; pr_Cont_SC_DFIM_v0].
