(** The description of an environment by its motor, control task and action type:
    src/gym_electric_motor/envs/motors.py.

    The enum members carry Python attributes.  [states] is an attribute of the member, i.e.
    one list object per motor type which every caller of [Motor.states] receives; it is kept
    here in a class state from motor types to lists. *)
From Verif Require Import PyBase PyDict Preset_Model.
Local Open Scope string_scope. Local Open Scope list_scope.

(** envs/motors.py 4-7 *)
Inductive mtype := MPermEx | MExtEx | MSeries | MShunt | MEesm | MDfim | MScim | MPmsm | MSynrm.
(** envs/motors.py 51 *)
Inductive ctype := CSpeed | CTorque | CCurrent.
(** envs/motors.py 56 *)
Inductive atype := AContinuous | AFinite.

(** The names of the members, envs/motors.py 4-7, 51, 56. *)
Definition mname (m : mtype) : string :=
  match m with
  | MPermEx => "PermanentlyExcitedDcMotor" | MExtEx => "ExternallyExcitedDcMotor" | MSeries => "SeriesDc" | MShunt => "ShuntDc"
  | MEesm => "ExternallyExcitedSynchronousMotor" | MDfim => "DoublyFedInductionMotor" | MScim => "SquirrelCageInductionMotor"
  | MPmsm => "PermanentMagnetSynchronousMotor" | MSynrm => "SynchronousReluctanceMotor" end.
Definition cname (c : ctype) : string := match c with CSpeed => "SpeedControl" | CTorque => "TorqueControl" | CCurrent => "CurrentControl" end.
Definition aname (a : atype) : string := match a with AContinuous => "Continuous" | AFinite => "Finite" end.
(** The attribute [env_id_tag], None when the member has none: envs/motors.py 43-49, 52-54, 57. *)
Definition mtag (m : mtype) : option string :=
  match m with
  | MPermEx => Some "PermExDc" | MExtEx => Some "ExtExDc" | MEesm => Some "EESM" | MDfim => Some "DFIM"
  | MScim => Some "SCIM" | MPmsm => Some "PMSM" | MSynrm => Some "SynRM" | MSeries | MShunt => None end.
Definition ctag (c : ctype) : option string := match c with CSpeed => Some "SC" | CTorque => Some "TC" | CCurrent => Some "CC" end.
Definition atag (a : atype) : option string := match a with AContinuous => Some "Cont" | AFinite => None end.
(** [_to_env_id], envs/motors.py 61-65 *)
Definition to_env_id (name : string) (tag : option string) : string := match tag with Some t => t | None => name end.

(** [Motor], envs/motors.py 68-72 *)
Record motor_desc := { d_motor : mtype; d_control : ctype; d_action : atype }.
(** [Motor.env_id], envs/motors.py 74-82 *)
Definition desc_env_id (d : motor_desc) : string :=
  String.append (String.append (String.append (String.append (String.append
    (to_env_id (aname (d_action d)) (atag (d_action d))) "-")
    (to_env_id (cname (d_control d)) (ctag (d_control d)))) "-")
    (to_env_id (mname (d_motor d)) (mtag (d_motor d)))) "-v0".

(** The lists assigned at import, envs/motors.py 8-39. *)
Definition init_states (m : mtype) : list string :=
  match m with
  | MPermEx => ["omega"; "torque"; "i"; "u"]
  | MExtEx => ["omega"; "torque"; "i_a"; "i_e"; "u_a"; "u_e"]
  | MSeries => ["omega"; "torque"; "i"; "u"]
  | MShunt => ["omega"; "torque"; "i_a"; "i_e"; "u"]
  | MEesm => ["omega"; "torque"; "i_sd"; "i_sq"; "i_a"; "i_b"; "i_c"; "i_e"; "u_sd"; "u_sq"; "u_a"; "u_b"; "u_c"; "u_e"]
  | MDfim => ["omega"; "torque"; "i_sa"; "i_sb"; "i_sc"; "i_sd"; "i_sq"; "u_sa"; "u_sb"; "u_sc"; "u_sd"; "u_sq";
              "i_ra"; "i_rb"; "i_rc"; "i_rd"; "i_rq"; "u_ra"; "u_rb"; "u_rc"; "u_rd"; "u_rq"; "epsilon"]
  | MScim => ["omega"; "torque"; "i_sa"; "i_sb"; "i_sc"; "i_sd"; "i_sq"; "u_sa"; "u_sb"; "u_sc"; "u_sd"; "u_sq"; "epsilon"]
  | MPmsm | MSynrm => ["omega"; "torque"; "i_sd"; "i_sq"; "i_a"; "i_b"; "i_c"; "u_sd"; "u_sq"; "u_a"; "u_b"; "u_c"]
  end.
(** The attributes [states] of the nine members at some time of the run. *)
Definition mclass := mtype -> list string.
Definition mtype_eqb (a b : mtype) : bool :=
  match a, b with
  | MPermEx, MPermEx | MExtEx, MExtEx | MSeries, MSeries | MShunt, MShunt | MEesm, MEesm | MDfim, MDfim | MScim, MScim
  | MPmsm, MPmsm | MSynrm, MSynrm => true | _, _ => false end.
(** [Motor.states], envs/motors.py 84-85: the list object of the member. *)
Definition desc_states (s : mclass) (d : motor_desc) : list string := s (d_motor d).
(** What a caller can do with the list object it received: append a name, or remove the
    first occurrence of one (the list methods; the only ones used here). *)
Inductive list_op := LAppend (x : string) | LRemove (x : string).
Fixpoint remove_first (x : string) (l : list string) : res (list string) :=
  match l with
  | [] => Err ValueError
  | y :: l' => if String.eqb x y then Ok l' else do r <- remove_first x l'; Ok (y :: r) end.
Definition list_do (o : list_op) (l : list string) : res (list string) :=
  match o with LAppend x => Ok (l ++ [x]) | LRemove x => remove_first x l end.
(** A caller of [d.states()] mutates its result. *)
Definition mutate_states (s : mclass) (d : motor_desc) (o : list_op) : res mclass :=
  do l <- list_do o (desc_states s d);
  Ok (fun m => if mtype_eqb m (d_motor d) then l else s m).

(** [gymnasium.make(id)] as far as the registry goes: the registered entry with that id
    (the last registration of an id wins; the ids are distinct). *)
Definition registered (id : string) : option preset := find (fun p => String.eqb id (pr_id p)) presets.
