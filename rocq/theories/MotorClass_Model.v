(** Model of the class attributes [IO_VOLTAGES] and [IO_CURRENTS] of the induction motors,
    src/gym_electric_motor/physical_systems/electric_motors/{induction_motor,
    squirrel_cage_induction_motor,doubly_fed_induction_motor}.py.
    Python lists are mutable objects: they live in a heap, attributes hold their addresses. *)
From Verif Require Import PyBase PyDict Utils_Model Transform_Model Motor_Model MotorLimit_Model.
Local Open Scope string_scope.
Local Open Scope list_scope.
Local Open Scope R_scope.

(** doubly_fed_induction_motor.py 98-102: constants of the class DoublyFedInductionMotor.
    No statement of the package changes them, they are kept as values. *)
Definition rotor_voltages : list string := ["u_ralpha"; "u_rbeta"].
Definition rotor_currents : list string := ["i_ralpha"; "i_rbeta"].
Definition io_rotor_voltages : list string := ["u_ra"; "u_rb"; "u_rc"; "u_rd"; "u_rq"].
Definition io_rotor_currents : list string := ["i_ra"; "i_rb"; "i_rc"; "i_rd"; "i_rq"].

(** The objects.  [mo_u], [mo_i] are the instance attributes IO_VOLTAGES and IO_CURRENTS,
    [None] if the instance has none of its own; [mo_limits] are the completed limits. *)
Inductive kind := Scim | Dfim.
Record motor_obj := { mo_kind : kind; mo_u : option nat; mo_i : option nat; mo_limits : tp_limits }.
(** The world: all lists, the addresses of InductionMotor.IO_VOLTAGES and .IO_CURRENTS
    (the subclasses define none of their own), the motors constructed so far. *)
Record world := { w_heap : list (list string); w_cls_u : nat; w_cls_i : nat; w_objs : list motor_obj }.
(** induction_motor.py 102-103, after the import of the package *)
Definition w_init : world := {| w_heap := [scim_io_voltages; scim_io_currents]; w_cls_u := 0; w_cls_i := 1; w_objs := [] |}.

(** Reading a list *)
Definition deref (w : world) (a : nat) : list string := nth a (w_heap w) [].
(** Attribute lookup: the instance first, then the class *)
Definition attr (own : option nat) (cls : nat) : nat := match own with Some a => a | None => cls end.
Definition obj_voltages (w : world) (o : motor_obj) : list string := deref w (attr (mo_u o) (w_cls_u w)).
Definition obj_currents (w : world) (o : motor_obj) : list string := deref w (attr (mo_i o) (w_cls_i w)).
(** [list += other]: the list object is extended in place *)
Definition extend_list (a : nat) (more : list string) (w : world) : world :=
  {| w_heap := list_set a (deref w a ++ more) (w_heap w); w_cls_u := w_cls_u w; w_cls_i := w_cls_i w; w_objs := w_objs w |}.
Definition add_obj (o : motor_obj) (w : world) : world :=
  {| w_heap := w_heap w; w_cls_u := w_cls_u w; w_cls_i := w_cls_i w; w_objs := w_objs w ++ [o] |}.

(** The constructors of the limits with given name lists (MotorLimit_Model, scim 131-144,
    dfim 135-152); [combine] is [zip] *)
Definition scim_with (us is : list string) (m : im_par) : dict R -> dict R -> res tp_limits :=
  construct scim_default_limits scim_default_nominal
    (tp_update (4000 * PI / 30) (im_rs m) (combine us is) (im_torque_limit m)).
Definition dfim_with (us is : list string) (m : im_par) : dict R -> dict R -> res tp_limits :=
  construct dfim_default_limits dfim_default_nominal
    (tp_update (1800 * PI / 30) (im_rr m) (combine us is) (im_torque_limit m)).

(** A constructor call with the motor parameters and the user's limits and nominal values *)
Inductive op := NewScim (m : im_par) (ul un : dict R) | NewDfim (m : im_par) (ul un : dict R).
(** SquirrelCageInductionMotor.__init__ = InductionMotor.__init__, induction_motor.py 146-176.
    Lines 156-166 build two dictionaries that [_update_limits] does not use. *)
Definition new_scim (m : im_par) (ul un : dict R) (w : world) : world * res tp_limits :=
  let r := scim_with (deref w (w_cls_u w)) (deref w (w_cls_i w)) m ul un in
  match r with
  | Ok l => (add_obj {| mo_kind := Scim; mo_u := None; mo_i := None; mo_limits := l |} w, r)
  | Err _ => (w, r)
  end.
(** DoublyFedInductionMotor.__init__ 130-133: [self.IO_VOLTAGES += ...] looks the attribute
    up (the class list), extends that object and binds it to the instance; this happens
    before anything can raise. *)
Definition new_dfim (m : im_par) (ul un : dict R) (w : world) : world * res tp_limits :=
  let w1 := extend_list (w_cls_u w) io_rotor_voltages w in
  let w2 := extend_list (w_cls_i w1) io_rotor_currents w1 in
  let r := dfim_with (deref w2 (w_cls_u w) ++ rotor_voltages) (deref w2 (w_cls_i w) ++ rotor_currents) m ul un in
  match r with
  | Ok l => (add_obj {| mo_kind := Dfim; mo_u := Some (w_cls_u w); mo_i := Some (w_cls_i w); mo_limits := l |} w2, r)
  | Err _ => (w2, r)
  end.
Definition w_step (w : world) (o : op) : world * res tp_limits :=
  match o with NewScim m ul un => new_scim m ul un w | NewDfim m ul un => new_dfim m ul un w end.
(** A history of constructor calls; the caller survives exceptions *)
Fixpoint w_run (w : world) (l : list op) : world :=
  match l with [] => w | o :: l' => w_run (fst (w_step w o)) l' end.
