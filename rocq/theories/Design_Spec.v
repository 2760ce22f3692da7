(** Vocabulary for the properties of the automatic controller design (Design_Props.v). *)
From Verif Require Import PyBase PyDict Transform_Model PhysSys_Model Preset_Model Preset_Props Full_Spec Ex_Model Ex_Model2 Ex_Spec Design_Model.
Local Open Scope string_scope.
Local Open Scope list_scope.
Local Open Scope R_scope.

(** The action spaces of the default converters of the DC environments: four quadrant
    converters have four actions, or one from the interval [-1, 1]. *)
Definition space_for (c : conv_class) : option space :=
  match c with
  | Single Cont4 => Some (SBox [-1] [1]) | Single Fin4 => Some (SDisc 4)
  | Multi false [Cont4; Cont4] => Some (SBox [-1; -1] [1; 1]) | Multi true [Fin4; Fin4] => Some (SMulti [4; 4]%Z)
  | _ => None
  end.
(** [CURRENTS_IDX] and [VOLTAGES_IDX] of a DC motor *)
Definition current_states (m : motor_class) : list string :=
  match m with PermExDc | SeriesDc => ["i"] | _ => ["i_a"; "i_e"] end.
Definition voltage_states (m : motor_class) : list string :=
  match m with ExtExDc => ["u_a"; "u_e"] | _ => ["u"] end.
Definition positions_of (ks l : list string) (idx : list nat) : Prop := Forall2 (fun k i => str_index k l = Ok i) ks idx.
(** A positive entry of the motor parameters *)
Definition positive (k : string) (mp : dict R) : Prop := exists v, dict_get k mp = Some v /\ 0 < v.
(** The motor parameters that the motor classes have *)
Definition parameters (m : motor_class) (mp : dict R) : Prop :=
  positive "l_a" mp /\ positive "r_a" mp /\
  match m with
  | PermExDc => positive "psi_e" mp
  | _ => positive "l_e" mp /\ positive "r_e" mp /\ positive "l_e_prime" mp
  end.

(** [d] is what the controllers see of the environment [p] with arbitrary positive limits,
    nominal values below them, motor parameters, state space and kind of object *)
Record dc_of (p : preset) (d : dc) : Prop := {
  do_names : en_names (dc_env d) = all_names p;
  do_low : length (en_low (dc_env d)) = length (all_names p);
  do_high : length (en_high (dc_env d)) = length (all_names p);
  do_limits : Forall2 (fun n l => 0 < n <= l) (en_nominal (dc_env d)) (en_limits (dc_env d));
  do_count : length (en_limits (dc_env d)) = length (all_names p);
  do_space : space_for (pr_conv p) = Some (en_space (dc_env d));
  do_cur : positions_of (current_states (pr_motor p)) (all_names p) (en_cur (dc_env d));
  do_volt : positions_of (voltage_states (pr_motor p)) (all_names p) (en_volt (dc_env d));
  do_mp : parameters (pr_motor p) (en_mp (dc_env d));
  do_extex : en_extex (dc_env d) = true <-> pr_motor p = ExtExDc;
  do_series : dc_series d = true <-> pr_motor p = SeriesDc;
  do_wrapped : dc_wrapped d = true <-> pr_wrappers p <> [];
  do_refs : dc_refs d = ref_names p;
  do_tau : 0 < en_tau (dc_env d) }.

(** Membership in the action space *)
Definition in_space (s : space) (a : list R) : Prop :=
  match s with
  | SBox low high => Forall2 (fun b x => fst b <= x <= snd b) (combine low high) a /\ length a = length low
  | SDisc n => exists v, a = [v] /\ valid_action n v
  | SMulti ns => Forall2 valid_action ns a
  end.
(** A history with states and references of the right sizes *)
Definition sized (n k : nat) (v : ev (list R)) : Prop :=
  match v with Control s r => length s = n /\ length r = k | ResetIt => True end.
(** The actions in a history of any controller *)
Definition actions (c : made) (h : list (ev (list R))) : res (list (list R)) :=
  match c with
  | MCont c => do x <- ca_run c h; Ok (snd x)
  | MDisc c => do x <- da_run c h; Ok (snd x)
  | MCasc c => do x <- cc_run c h; Ok (snd x)
  end.
(** The controller can be used: no history raises, and every action is in the action space *)
Definition usable (d : dc) (c : made) : Prop :=
  forall h, Forall (sized (length (en_names (dc_env d))) (length (dc_refs d))) h ->
  exists l, actions c h = Ok l /\ Forall (in_space (en_space (dc_env d))) l.

(** What the automatic design of a controller for the environment with action type, task and
    motor in its id leads to *)
Inductive verdict := Usable | Raises (x : exn).
Definition design_verdict (finite : bool) (t : task) (m : motor_class) (a : access) : verdict :=
  match t, a, m, finite with
  | CurrentControl, Opaque, _, _ => Raises AttributeError
  | CurrentControl, _, ShuntDc, _ => Raises AssertionError
  | CurrentControl, _, ExtExDc, true => Raises TypeError
  | CurrentControl, Forwarding, ExtExDc, false => Raises AttributeError
  | _, _, _, _ => Usable
  end.
Definition is_dc (m : motor_class) : bool := match m with PermExDc | SeriesDc | ShuntDc | ExtExDc => true | _ => false end.

(** The stage [s'] has everything that [s] has, and apart from the three gains nothing else *)
Definition extends (s s' : stage) : Prop :=
  st_type s' = st_type s /\ (forall k v, dict_get k (st_par s) = Some v -> dict_get k (st_par s') = Some v) /\
  forall k, ~ In k ["p_gain"; "i_gain"; "d_gain"] -> dict_get k (st_par s') = dict_get k (st_par s).
Definition stages_extend (ss ss' : stages) : Prop :=
  match ss, ss' with
  | SList l, SList l' => Forall2 extends l l'
  | SPair a b, SPair a' b' => Forall2 extends a a' /\ Forall2 extends b b'
  | _, _ => False
  end.
