(** Model of src/gym_electric_motor/physical_systems/voltage_supplies.py. *)
From Verif Require Import PyBase PyDict Solver_Model.

(** ** IdealVoltageSupply, 60-72 *)
Record ideal := { id_u : R }.
Definition ideal_new (u : R) : ideal := {| id_u := u |}.
Definition ideal_range (s : ideal) : R * R := (id_u s, id_u s).
(** [get_voltage], 70-72; [reset], 36-44 *)
Definition ideal_get (s : ideal) (t i : R) : list R := [id_u s].
Definition ideal_reset (s : ideal) : list R := ideal_get s 0 0.

(** ** RCVoltageSupply, 75-123 *)
(** Arguments of [system_equation] besides t and u_sup. *)
Record rc_par := { p_u0 : R; p_i : R; p_r : R; p_c : R }.
(** 108-110; [r * c = 0] divides by zero (Python floats raise). *)
Definition rc_rhs : rhs rc_par := fun p t u =>
  match u with
  | [] => Err IndexError
  | u0 :: _ => if req (p_r p * p_c p) 0 then Err ZeroDivisionError
               else Ok [(p_u0 p - u0 - p_r p * p_i p) / (p_r p * p_c p)]
  end.
Record rc := { rc_u0 : R; rc_r : R; rc_c : R; rc_solver : euler rc_par }.
(** [__init__], 78-106: missing keys raise AssertionError; an empty dictionary is
    replaced by the default ([supply_parameter or {...}], 91).  The warning for
    small R*C (98-102) has no effect. *)
Definition rc_new (u : R) (par : dict R) : res rc :=
  let par := match par with [] => [("R"%string, 1); ("C"%string, 4 / 1000)] | _ => par end in
  match dict_get "R"%string par, dict_get "C"%string par with
  | Some r, Some c => Ok {| rc_u0 := u; rc_r := r; rc_c := c; rc_solver := euler_new 1 |}
  | _, _ => Err AssertionError
  end.
Definition rc_range (s : rc) : R * R := (0, rc_u0 s).
(** [reset], 112-117 *)
Definition rc_reset (s : rc) : rc * res (list R) :=
  ({| rc_u0 := rc_u0 s; rc_r := rc_r s; rc_c := rc_c s; rc_solver := set_initial_value [rc_u0 s] 0 (rc_solver s) |},
   Ok [rc_u0 s]).
(** [get_voltage], 119-123 *)
Definition rc_get (s : rc) (t i : R) : rc * res (list R) :=
  let sv := set_f_params {| p_u0 := rc_u0 s; p_i := i; p_r := rc_r s; p_c := rc_c s |} (rc_solver s) in
  let (sv', u) := integrate rc_rhs sv t in
  ({| rc_u0 := rc_u0 s; rc_r := rc_r s; rc_c := rc_c s; rc_solver := sv' |}, u).
(** Histories: resets and voltage requests. *)
Inductive rc_op := RcReset | RcGet (t i : R).
Definition rc_step (s : rc) (o : rc_op) : rc :=
  match o with RcReset => fst (rc_reset s) | RcGet t i => fst (rc_get s t i) end.
Definition rc_run (s : rc) (ops : list rc_op) : rc := fold_left rc_step ops s.

(** ** AC1PhaseSupply, 126-166, and AC3PhaseSupply, 169-213 *)
(** [ac_phases] is the class: 1 or 3 output voltages. *)
Record ac := { ac_phases : nat; ac_u : R; ac_f : R; ac_phi : R; ac_fixed : bool; ac_amp : R }.
Definition ac_amplitude (phases : nat) (u : R) : R :=
  match phases with 1%nat => u * sqrt 2 | _ => u / sqrt 3 * sqrt 2 end.
(** [__init__], 129-156 and 174-200.  [par] is the user's dictionary (None: not
    given), [draw] the value of [np.random.rand()] should it be called.  The
    dictionary after the call is returned too: without "phase" the constructor
    writes the drawn phase into the user's dictionary (149, 193). *)
Definition ac_new (phases : nat) (u : R) (par : option (dict R)) (draw : R) : option (dict R) * res ac :=
  let mk f phi fixed := {| ac_phases := phases; ac_u := u; ac_f := f; ac_phi := phi; ac_fixed := fixed;
                           ac_amp := ac_amplitude phases u |} in
  match par with
  | None => (None, Ok (mk 50 (draw * 2 * PI) false))
  | Some d =>
      match dict_get "frequency"%string d with
      | None => (Some d, Err AssertionError)
      | Some f =>
          match dict_get "phase"%string d with
          | Some phi => (Some d, if rle 0 phi && rlt phi (2 * PI) then Ok (mk f phi true) else Err AssertionError)
          | None => let d' := dict_set "phase"%string (draw * 2 * PI) d in (Some d', Ok (mk f (draw * 2 * PI) false))
          end
      end
  end.
Definition ac_range (s : ac) : R * R := (-1 * ac_amp s, ac_amp s).
(** [get_voltage], 163-166 and 208-213 *)
Definition ac_get (s : ac) (t : R) : list R :=
  match ac_phases s with
  | 1%nat => [ac_amp s * sin (2 * PI * ac_f s * t + ac_phi s)]
  | _ => map (fun i => ac_amp s * sin (2 * PI * ac_f s * t + ac_phi s + 2 / 3 * PI * i)) [0; 1; 2]
  end.
(** [reset], 158-161 and 202-206: a phase that is not fixed is drawn again from the
    global numpy generator. *)
Definition ac_reset (s : ac) (draw : R) : ac * list R :=
  let s' := if ac_fixed s then s
            else {| ac_phases := ac_phases s; ac_u := ac_u s; ac_f := ac_f s; ac_phi := draw * 2 * PI;
                    ac_fixed := false; ac_amp := ac_amp s |} in
  (s', ac_get s' 0).
