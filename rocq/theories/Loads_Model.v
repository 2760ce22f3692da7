(** Model of the mechanical loads,
    src/gym_electric_motor/physical_systems/mechanical_loads/:
    mechanical_load.py, constant_speed_load.py, polynomial_static_load.py,
    external_speed_load.py, ornstein_uhlenbeck_load.py. *)
From Verif Require Import PyBase PyDict Utils_Model Transform_Model Init_Model.

(** ** Initial states: mechanical_load.py 84-186 *)
(** What the physical system passes to [reset]: [nominal_state] (an array),
    [state_positions], [state_space.low]; the random draws as in [Init_Model]. *)
Record load_env := { le_nominal : list R; le_positions : dict nat; le_low : list R }.
(** The entries interval, random_init, random_params of the initializer; the entry
    "states" is a dictionary object and lives in the heap below. *)
Record load_opts := { lo_interval : option (list (R * R)); lo_random : option dist; lo_params : option R * option R }.

(** Bounds, mechanical_load.py 115-129 *)
Definition load_bounds (e : load_env) (iv : option (list (R * R))) (names : list string) : res (list R * list R) :=
  do idx <- positions names (le_positions e);
  do up <- select idx (le_nominal e);
  do low <- select idx (le_low e);
  clip_bounds iv (map2 Rmult up low, up).
(** [initialize], mechanical_load.py 100-167 *)
Definition load_initialize (o : load_opts) (e : load_env) (tn : truncnorm) (pool : nat) (us : nat -> list R) (st : dict R) : res (dict R) :=
  let names := dict_keys st in
  do b <- load_bounds e (lo_interval o) names;
  let (lo, up) := b in
  match lo_random o with
  | Some Uniform => Ok (dict_update st (combine names (map2 Rplus (map2 Rmult (map2 Rminus up lo) (us (length names))) lo)))
  | Some Normal =>
      let mue := gauss_mue (fst (lo_params o)) lo up in
      let sigma := or_num (snd (lo_params o)) 1 in
      do v <- tn (map2 (fun l m => (l - m) / sigma) lo mue) (map2 (fun u m => (u - m) / sigma) up mue) mue sigma pool;
      Ok (dict_update st (combine names v))
  | Some OtherDist => Err NotImplementedError
  | None => if all_le lo (dict_values st) && all_le (dict_values st) up then Ok st else Err PlainException
  end.

(** ** Shared dictionaries *)
(** Dictionary objects holding initial states: the class attribute
    [_default_initializer["states"]] of ConstantSpeedLoad (constant_speed_load.py 13-18)
    and of PolynomialStaticLoad (polynomial_static_load.py 40-45), and dictionaries the
    user passes, by number. *)
Inductive cell := ConstClass | PolyClass | UserDict (n : nat).
Definition cell_eqb (a b : cell) : bool :=
  match a, b with
  | ConstClass, ConstClass | PolyClass, PolyClass => true
  | UserDict n, UserDict m => Nat.eqb n m
  | _, _ => false
  end.
Definition heap := cell -> dict R.
Definition heap_set (h : heap) (c : cell) (d : dict R) : heap := fun c' => if cell_eqb c' c then d else h c'.
(** Class definitions executed, user dictionaries as given. *)
Definition heap_init (user : nat -> dict R) : heap :=
  fun c => match c with UserDict n => user n | _ => [("omega"%string, 0)] end.

(** A load object: the dictionary its initializer refers to and, for ConstantSpeedLoad,
    [_omega]. *)
Record load := { ld_cell : cell; ld_opts : load_opts; ld_omega : option R }.

(** mechanical_load.py 84-98: the copy of the class dictionary is shallow, so the states
    dictionary of the class is used unless the user passes one. *)
Definition pick (cls : cell) (user : option nat) : cell := match user with Some n => UserDict n | None => cls end.
(** constant_speed_load.py 28-39 *)
Definition new_const (h : heap) (omega_fixed : R) (user : option nat) (o : load_opts) : res (heap * load) :=
  let c := pick ConstClass user in
  do w <- (if req omega_fixed 0 then dict_item "omega"%string (h c) else Ok omega_fixed);
  let h' := if req omega_fixed 0 then h else heap_set h c (dict_set "omega"%string omega_fixed (h c)) in
  Ok (h', {| ld_cell := c; ld_opts := o; ld_omega := Some w |}).
(** polynomial_static_load.py 68-76 (initial state part) *)
Definition new_poly (user : option nat) (o : load_opts) : load := {| ld_cell := pick PolyClass user; ld_opts := o; ld_omega := None |}.
(** [reset], mechanical_load.py 169-186 ([_initializer] is never empty here) *)
Definition load_reset (h : heap) (l : load) (e : load_env) (tn : truncnorm) (pool : nat) (us : nat -> list R) : res (heap * list R) :=
  do d <- load_initialize (ld_opts l) e tn pool us (h (ld_cell l));
  Ok (heap_set h (ld_cell l) d, dict_values d).

(** A program using loads.  A call that raises leaves heap and objects as they were. *)
Inductive load_op :=
  | NewConst (omega_fixed : R) (user : option nat) (o : load_opts)
  | NewPoly (user : option nat) (o : load_opts)
  | ResetLoad (i : nat) (e : load_env) (tn : truncnorm) (pool : nat) (us : nat -> list R).
Definition world := (heap * list load)%type.
Definition load_step (w : world) (op : load_op) : world * res (list R) :=
  let (h, ls) := w in
  match op with
  | NewConst wf user o => match new_const h wf user o with Ok (h', l) => ((h', ls ++ [l]), Ok []) | Err e => (w, Err e) end
  | NewPoly user o => ((h, ls ++ [new_poly user o]), Ok [])
  | ResetLoad i e tn pool us =>
      match nth_error ls i with
      | None => (w, Err IndexError)
      | Some l => match load_reset h l e tn pool us with Ok (h', v) => ((h', ls), Ok v) | Err er => (w, Err er) end
      end
  end.
Definition load_run (w : world) (ops : list load_op) : world := fold_left (fun w op => fst (load_step w op)) ops w.

(** ** PolynomialStaticLoad: polynomial_static_load.py 62-107 *)
Record poly := { po_a : R; po_b : R; po_c : R; po_jload : R; po_jtotal : R; po_lim : R; po_lin : R }.
(** Class attribute, 49 *)
Definition tau_decay : R := 1 / 1000.
(** 68-85; [j_load = 0] divides by zero. *)
Definition poly_new (a b c j : R) : res poly :=
  if req j 0 then Err ZeroDivisionError
  else Ok {| po_a := a; po_b := b; po_c := c; po_jload := j; po_jtotal := j; po_lim := a / j * tau_decay; po_lin := j / tau_decay |}.
(** [set_j_rotor], mechanical_load.py 188-193 and polynomial_static_load.py 62-66 *)
Definition poly_set_j_rotor (j : R) (p : poly) : res poly :=
  let jt := po_jtotal p + j in
  if req jt 0 then Err ZeroDivisionError
  else Ok {| po_a := po_a p; po_b := po_b p; po_c := po_c p; po_jload := po_jload p; po_jtotal := jt;
             po_lim := po_a p / jt * tau_decay; po_lin := jt / tau_decay |}.
Definition sgn (x : R) : R := if rlt 0 x then 1 else if rlt x 0 then -1 else 0.
(** [_static_load], 87-92 *)
Definition static_load (p : poly) (w : R) : R :=
  let a := if rlt (po_lim p) (Rabs w) then sgn w * po_a p else po_lin p * w in
  sgn w * po_c p * (w * w) + po_b p * w + a.
(** [mechanical_ode], 94-99 *)
Definition poly_ode (p : poly) (t : R) (st : list R) (torque : R) : res (list R) :=
  do w <- item st 0; Ok [(torque - static_load p w) / po_jtotal p].
(** [mechanical_jacobian], 101-107 *)
Definition poly_jacobian (p : poly) (t : R) (st : list R) (torque : R) : res (list (list R) * list R) :=
  do w <- item st 0;
  let a := if rlt (po_a p * tau_decay / po_jtotal p) (Rabs w) then 0 else po_jtotal p / tau_decay in
  Ok ([[(- po_b p - 2 * sgn w * po_c p * w - a) / po_jtotal p]], [1 / po_jtotal p]).

(** ** ConstantSpeedLoad: constant_speed_load.py 36-46 *)
Definition const_ode (t : R) (st : list R) (torque : R) : res (list R) := Ok [0].
Definition const_jacobian (t : R) (st : list R) (torque : R) : res (list (list R) * list R) := Ok ([[0]], [0]).

(** ** ExternalSpeedLoad: external_speed_load.py 24-77 *)
(** The profile with its keyword arguments is a function of time. *)
Record ext_load := { ex_profile : R -> R; ex_tau : R; ex_initial : R }.
Definition ext_new (profile : R -> R) (tau : R) : ext_load := {| ex_profile := profile; ex_tau := tau; ex_initial := profile 0 |}.
Definition ext_ode (l : ext_load) (t : R) (st : list R) : res (list R) :=
  if req (ex_tau l) 0 then Err ZeroDivisionError
  else do w <- item st 0; Ok [1 / ex_tau l * (ex_profile l (t + ex_tau l) - w)].
Definition ext_reset (l : ext_load) : list R := [ex_initial l].

(** ** OrnsteinUhlenbeckLoad: ornstein_uhlenbeck_load.py 11-40 *)
(** Objects as attribute dictionaries, as far as the constructor needs them: the
    attributes written by MechanicalLoad.__init__ (mechanical_load.py 90-98) and
    RandomComponent.__init__; [np.random.uniform] gives [draw]. *)
Inductive attr := ANum (x : R) | APair (x y : R) | AOther.
Definition getattr (name : string) (d : dict attr) : res attr :=
  match dict_get name d with Some a => Ok a | None => Err AttributeError end.
Definition mech_attrs : dict attr :=
  [("_j_total"%string, ANum 0); ("_j_load"%string, ANum 0); ("_state_names"%string, AOther); ("_limits"%string, AOther);
   ("_nominal_values"%string, AOther); ("_initializer"%string, AOther); ("_initial_states"%string, AOther);
   ("_seed_sequence"%string, AOther); ("_random_generator"%string, AOther); ("_seed_children"%string, AOther)].
(** The statements of the constructor in order, 22-28. *)
Definition ou_new (mu sigma theta tau : R) (range : R * R) (draw : R -> R -> R) : res (dict attr) :=
  let d := mech_attrs in
  do r <- getattr "_omega_range"%string d;
  match r with
  | APair lo hi =>
      let d := dict_set "_omega"%string (ANum (draw lo hi)) d in
      let d := dict_set "theta"%string (ANum theta) d in
      let d := dict_set "mu"%string (ANum mu) d in
      let d := dict_set "tau"%string (ANum tau) d in
      let d := dict_set "sigma"%string (ANum sigma) d in
      Ok (dict_set "_omega_range"%string (APair (fst range) (snd range)) d)
  | _ => Err TypeError
  end.
(** [mechanical_ode], 29-35, for a one element state; [z] is the drawn normal value. *)
Definition ou_ode (mu sigma theta tau : R) (range : R * R) (w z : R) : R :=
  np_clip (theta * (mu - w) * tau + sigma * sqrt tau * z) ((fst range - w) / tau) ((snd range - w) / tau).
