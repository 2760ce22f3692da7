(** Model of src/gym_electric_motor/physical_systems/physical_systems.py.

    The components (converter, supply, motor, load) enter as functions; the
    concrete ones of the repository are modelled in [Conv_Model], [Supply_Model],
    [Motor_Model] and [Loads_Model].  The ODE solver is the project's own
    [EulerSolver] ([Solver_Model]); systems with any solver are in [Scipy_Model].
    Python attributes that a call changes are the fields of [sys]. *)
From Verif Require Import PyBase PyDict Conv_Model Solver_Model Supply_Model Transform_Model Motor_Model Loads_Model.

(** ** Limits and the division of the state by them *)
(** [np.inf] is the default of [_set_limits]. *)
Inductive lim := Fin (r : R) | Inf.
Definition lim_min (a b : lim) : lim :=
  match a, b with Fin x, Fin y => Fin (Rmin x y) | Fin x, Inf => Fin x | Inf, y => y end.
(** [limits.get(state, np.inf)] *)
Definition get_lim (k : string) (d : dict R) : lim := match dict_get k d with Some v => Fin v | None => Inf end.
(** [_set_limits], 105-113, the copy for the doubly fed induction motor 874-880, and
    [_set_nominal_state], 115-123, which is the same for nominal values.  A state
    vector without "u_sup" raises KeyError. *)
Definition set_limits (names : list string) (motor load : dict R) (u_nominal : R) : res (list lim) :=
  let l := map (fun k => lim_min (get_lim k motor) (get_lim k load)) names in
  match str_index "u_sup"%string names with
  | Ok i => Ok (list_set i (Fin u_nominal) l)
  | Err _ => Err KeyError
  end.
(** [x / inf] is 0 for finite x.  Division by a limit of 0 gives inf or nan in numpy;
    theorems that speak about the quotient assume non-zero limits. *)
Definition ldiv (x : R) (l : lim) : R := match l with Fin r => x / r | Inf => 0 end.
(** [system_state / self._limits]: arrays of different lengths raise ValueError
    (broadcasting of length 1 is not modelled; every system has more states). *)
Definition np_div (x : list R) (l : list lim) : res (list R) :=
  if Nat.eqb (length x) (length l) then Ok (map2 ldiv x l) else Err ValueError.

(** [a[idx] = vals]: IndexError for a position outside, ValueError for another number
    of values; a single value is written to every position. *)
Fixpoint put_all (idx : list nat) (vals : list R) (a : list R) : list R :=
  match idx, vals with i :: idx', v :: vals' => put_all idx' vals' (list_set i v a) | _, _ => a end.
Definition put (idx : list nat) (vals : list R) (a : list R) : res (list R) :=
  if forallb (fun i => Nat.ltb i (length a)) idx then
    if Nat.eqb (length vals) (length idx) then Ok (put_all idx vals a)
    else match vals with [v] => Ok (put_all idx (repeat v (length idx)) a) | _ => Err ValueError end
  else Err IndexError.

(** Python's [%] with a positive divisor, and the wrap of the angle (520-522). *)
Definition py_mod (x m : R) : R := x - m * IZR (Int_part (x / m)).
Definition wrap (e : R) : R := if rlt PI e then e - 2 * PI else e.
Definition wrap_angle (e : R) : R := wrap (py_mod e (2 * PI)).
(** [numpy.arctan2]; zeros have no sign here. *)
Definition np_arctan2 (y x : R) : R :=
  if rlt 0 x then atan (y / x)
  else if rlt x 0 then (if rle 0 y then atan (y / x) + PI else atan (y / x) - PI)
  else if rlt 0 y then PI / 2 else if rlt y 0 then - (PI / 2) else 0.

(** ** Components *)
(** Motor: number of ODE states ([_motor_ode_idx]), number of currents
    ([len(CURRENTS)]), [CURRENTS_IDX] inside the motor state, and methods. *)
Record motor (U : Type) := {
  mo_n : nat; mo_nc : nat; mo_cidx : list nat;
  mo_ode : list R -> U -> R -> res (list R);
  mo_torque : list R -> res R;
  mo_i_in : list R -> res (list R) }.
Arguments mo_n {U}. Arguments mo_nc {U}. Arguments mo_cidx {U}. Arguments mo_ode {U}. Arguments mo_torque {U}. Arguments mo_i_in {U}.
(** Load: number of states, [OMEGA_IDX], [mechanical_ode(t, state, torque)]. *)
Record mload := { ml_n : nat; ml_omega : nat; ml_ode : R -> list R -> R -> res (list R) }.
(** Converter and supply with their internal states. *)
Record conv_if (C A : Type) := {
  cv_set_action : C -> A -> R -> call C (list R);
  cv_convert : C -> list R -> R -> call C (list R);
  cv_i_sup : C -> list R -> res R;
  cv_reset : C -> call C (list R) }.
Arguments cv_set_action {C A}. Arguments cv_convert {C A}. Arguments cv_i_sup {C A}. Arguments cv_reset {C A}.
Record supply_if (S : Type) := {
  sp_get : S -> R -> R -> call S (list R);
  sp_reset : S -> call S (list R) }.
Arguments sp_get {S}. Arguments sp_reset {S}.

(** Indices of [_set_indices], 141-162, 462-485, 737-751 (motor states follow the
    load states in the ODE vector; the rotor angle is the last one). *)
Definition load_idx (ml : mload) : list nat := seq 0 (ml_n ml).
Definition motor_idx {U} (ml : mload) (mo : motor U) : list nat := seq (ml_n ml) (mo_n mo).
Definition cur_idx {U} (ml : mload) (mo : motor U) : list nat := seq (ml_n ml) (mo_nc mo).
Definition eps_idx {U} (ml : mload) (mo : motor U) : nat := ml_n ml + mo_n mo - 1.

(** ** The system equation *)
Section Equation.
Context {U : Type} (ml : mload) (mo : motor U).
(** The two derivatives, 220-223. *)
Definition derivatives (u : U) (t : R) (st : list R) : res (list R * list R) :=
  do ms <- select (motor_idx ml mo) st;
  do w <- item st (ml_omega ml);
  do md <- mo_ode mo ms u w;
  do tq <- mo_torque mo ms;
  do ls <- select (load_idx ml) st;
  do ld <- ml_ode ml t ls tq;
  Ok (ld, md).
(** [_system_equation] without the reused array. *)
Definition system_equation : rhs U := fun u t st =>
  do p <- derivatives u t st; Ok (fst p ++ snd p).
(** [_system_equation], 205-236, with the array [_system_eq_placeholder] that is
    allocated in the first call and overwritten in place later; [snd] is
    [_load_deriv_size].  Slice assignment of another size raises ValueError
    (broadcasting of size 1 is not modelled). *)
Definition system_equation_ph (cache : option (list R * nat)) (u : U) (t : R) (st : list R)
  : call (option (list R * nat)) (list R) :=
  match cache with
  | None =>
      match derivatives u t st with
      | Ok (ld, md) => (Some (ld ++ md, length ld), Ok (ld ++ md))
      | Err e => (None, Err e)
      end
  | Some (arr, n) =>
      match (do ms <- select (motor_idx ml mo) st;
             do ls <- select (load_idx ml) st;
             do tq <- mo_torque mo ms;
             do ld <- ml_ode ml t ls tq;
             if Nat.eqb (length ld) n then Ok (ms, ld) else Err ValueError) with
      | Err e => (cache, Err e)
      | Ok (ms, ld) =>
          let arr1 := ld ++ skipn n arr in
          match (do w <- item st (ml_omega ml);
                 do md <- mo_ode mo ms u w;
                 if Nat.eqb (length md) (length arr - n) then Ok md else Err ValueError) with
          | Err e => (Some (arr1, n), Err e)
          | Ok md => (Some (ld ++ md, n), Ok (ld ++ md))
          end
      end
  end.

(** [_system_jacobian], 238-254.  [mjac] and [ljac] are the jacobians of motor and
    load.  Assigning blocks that do not fit raises ValueError. *)
Definition block_row (top : bool) (nl : nat) (lj mj : list R) (coupl : list R) (w_entry : R) (om : nat) : list R :=
  if top then lj ++ coupl else list_set om w_entry (repeat 0 nl) ++ mj.
Definition system_jacobian (mjac : list R -> U -> R -> res (list (list R) * list R * list R))
    (ljac : R -> list R -> R -> res (list (list R) * list R)) (u : U) (t : R) (st : list R) : res (list (list R)) :=
  do ms <- select (motor_idx ml mo) st;
  do w <- item st (ml_omega ml);
  do mj <- mjac ms u w;
  do tq <- mo_torque mo ms;
  do ls <- select (load_idx ml) st;
  do lj <- ljac t ls tq;
  let '(mj, jw, jt) := mj in
  let '(lj, lt) := lj in
  let nl := length lj in let nm := length mj in
  if Nat.eqb (nl + nm) (length st) && Nat.eqb (length lt) nl && Nat.eqb (length jw) nm && Nat.eqb (length jt) nm
     && forallb (fun r => Nat.eqb (length r) nl) lj && forallb (fun r => Nat.eqb (length r) nm) mj
  then Ok (map2 (fun row a => block_row true nl row [] (map (fun b => a * b) jt) 0 0) lj lt ++
           map2 (fun row a => block_row false nl [] row [] a (ml_omega ml)) mj jw)
  else Err ValueError.
End Equation.

(** [_build_state_space] of the three phase systems, 437-442, 567-572, 712-717, 882-887: the lower
    bounds, -1 everywhere and 0 at the positions of the supply voltages; called in the
    constructor.  [names] is the number of state names, [voltage_len] the attribute of
    the supply (19, 172 of voltage_supplies.py). *)
Definition three_phase_low (names voltage_len : nat) : res (list R) :=
  put (seq (names - 1) voltage_len) [0] (repeat (-1) names).

(** ** simulate *)
Section Simulate.
Context {C S A U V : Type}.
Context (cv : conv_if C A) (sp : supply_if S) (f : rhs U) (tau : R).

(** Attributes of the system that change. *)
Record sys := { sy_c : C; sy_s : S; sy_e : euler U; sy_t : R; sy_k : nat; sy_state : list R }.
Definition with_c (c : C) (x : sys) : sys :=
  {| sy_c := c; sy_s := sy_s x; sy_e := sy_e x; sy_t := sy_t x; sy_k := sy_k x; sy_state := sy_state x |}.
Definition with_s (s : S) (x : sys) : sys :=
  {| sy_c := sy_c x; sy_s := s; sy_e := sy_e x; sy_t := sy_t x; sy_k := sy_k x; sy_state := sy_state x |}.
Definition with_e (e : euler U) (x : sys) : sys :=
  {| sy_c := sy_c x; sy_s := sy_s x; sy_e := e; sy_t := sy_t x; sy_k := sy_k x; sy_state := sy_state x |}.

(** [u_in = [u * u_s for u in u_in for u_s in u_sup]] *)
Definition scale_voltages (u us : list R) : list R := flat_map (fun a => map (fun b => a * b) us) u.

(** One integration interval, e.g. 178-183 or 186-191: supply current, supply
    voltage, converter voltage, parameters of the ODE, integration up to [t].  The
    result holds u_in, u_sup, the parameters and the new ODE state. *)
Record interval := { iv_u : list R; iv_sup : list R; iv_par : U; iv_y : list R }.
Definition sub_interval (volt : list R -> res U) (i_in : list R) (x : sys) (t : R) : call sys interval :=
  match cv_i_sup cv (sy_c x) i_in with
  | Err e => (x, Err e)
  | Ok i_sup =>
      let (s', us) := sp_get sp (sy_s x) (sy_t x) i_sup in
      let x1 := with_s s' x in
      match us with
      | Err e => (x1, Err e)
      | Ok us =>
          let (c', u) := cv_convert cv (sy_c x1) i_in (eu_t (sy_e x1)) in
          let x2 := with_c c' x1 in
          match u with
          | Err e => (x2, Err e)
          | Ok u =>
              let u_in := scale_voltages u us in
              match volt u_in with
              | Err e => (x2, Err e)
              | Ok p =>
                  let (e', y) := integrate f (set_f_params p (sy_e x2)) t in
                  (with_e e' x2, do y <- y; Ok {| iv_u := u_in; iv_sup := us; iv_par := p; iv_y := y |})
              end
          end
      end
  end.

(** How a system reads the ODE state: [view] gives what it keeps between intervals
    (angles and converter currents), [cur] the currents for the converter, [volt] the
    ODE parameters from the voltages. *)
Context (view : list R -> res V) (cur : V -> list R) (volt volt_last : V -> list R -> res U).
(** The loop over [switching_times[:-1]]. *)
Fixpoint intervals (v : V) (x : sys) (ts : list R) : call sys V :=
  match ts with
  | [] => (x, Ok v)
  | t :: ts' =>
      let (x', r) := sub_interval (volt v) (cur v) x t in
      match r with
      | Err e => (x', Err e)
      | Ok iv => match view (iv_y iv) with Err e => (x', Err e) | Ok v' => intervals v' x' ts' end
      end
  end.

(** [simulate]: common to 171-203, 487-525, 619-657, 771-814, 968-1054.  [act]
    transforms the action, [out] builds the new [system_state] from the last view,
    the last interval and the old array; [limits] divide it.  Without [reset] the ODE
    state is None and indexing it raises TypeError. *)
Context (act : V -> A -> res A) (out : V -> interval -> list R -> res (list R)) (limits : list lim).
Definition simulate (a : A) (x : sys) : call sys (list R) :=
  match eu_y (sy_e x) with
  | None => (x, Err TypeError)
  | Some y0 =>
      match (do v <- view y0; do a' <- act v a; Ok (v, a')) with
      | Err e => (x, Err e)
      | Ok (v, a') =>
          let (c', ts) := cv_set_action cv (sy_c x) a' (sy_t x) in
          let x1 := with_c c' x in
          match ts with
          | Err e => (x1, Err e)
          | Ok ts =>
              let (x2, v) := intervals v x1 (removelast ts) in
              match v with
              | Err e => (x2, Err e)
              | Ok v =>
                  let (x3, iv) := sub_interval (volt_last v) (cur v) x2 (sy_t x2 + tau) in
                  match iv with
                  | Err e => (x3, Err e)
                  | Ok iv =>
                      let x4 := {| sy_c := sy_c x3; sy_s := sy_s x3; sy_e := sy_e x3; sy_t := eu_t (sy_e x3);
                                   sy_k := Datatypes.S (sy_k x3); sy_state := sy_state x3 |} in
                      match out v iv (sy_state x4) with
                      | Err e => (x4, Err e)
                      | Ok st =>
                          ({| sy_c := sy_c x4; sy_s := sy_s x4; sy_e := sy_e x4; sy_t := sy_t x4; sy_k := sy_k x4; sy_state := st |},
                           np_div st limits)
                      end
                  end
              end
          end
      end
  end.

(** [reset]: common to 256-287, 527-561, 659-693, 816-847, 1056-1113.  [init] are
    the states drawn by load and motor (the order of the two calls differs between
    the systems; it only matters if both raise).  [obs] builds the observation from
    mechanical state, motor state, converter voltages and supply voltages; it is
    evaluated before time and solver are set, except for the division. *)
Context (obs : list R -> list R -> list R -> list R -> res (list R)).
Definition reset (init : res (list R * list R)) (x : sys) : call sys (list R) :=
  match init with
  | Err e => (x, Err e)
  | Ok (mech, ms) =>
      let (s', us) := sp_reset sp (sy_s x) in
      let x1 := with_s s' x in
      match us with
      | Err e => (x1, Err e)
      | Ok us =>
          let (c', u) := cv_reset cv (sy_c x1) in
          let x2 := with_c c' x1 in
          match (do u <- u; obs mech ms (scale_voltages u us) us) with
          | Err e => (x2, Err e)
          | Ok st =>
              ({| sy_c := sy_c x2; sy_s := sy_s x2; sy_e := set_initial_value (mech ++ ms) 0 (sy_e x2); sy_t := 0; sy_k := 0;
                  sy_state := sy_state x2 |}, np_div st limits)
          end
      end
  end.
End Simulate.
Arguments sys : clear implicits.
Arguments interval : clear implicits.
Definition act_id {V A} (v : V) (a : A) : res A := Ok a.

(** ** SCMLSystem / DcMotorSystem *)
Section Dc.
Context (ml : mload) (mo : motor (list R)) (nvolt nsup : nat).
(** [_motor_ode_idx] is [_ode_currents_idx] (153): the DC motors have [mo_n = mo_nc].
    The view are the currents for the converter (174, 184). *)
Definition dc_view (y : list R) : res (list R) := do i <- select (cur_idx ml mo) y; mo_i_in mo i.
Definition dc_cur (v : list R) : list R := v.
Definition dc_volt (v u : list R) : res (list R) := Ok u.
(** Positions of the blocks of the state vector, 154-162 *)
Definition dc_torque_idx : nat := ml_n ml.
Definition dc_currents_idx : list nat := seq (dc_torque_idx + 1) (mo_nc mo).
Definition dc_voltages_idx : list nat := seq (dc_torque_idx + 1 + mo_nc mo) nvolt.
Definition dc_usup_idx : list nat := seq (dc_torque_idx + 1 + mo_nc mo + nvolt) nsup.
(** 194-202 *)
Definition dc_out (v : list R) (iv : interval (list R)) (st : list R) : res (list R) :=
  do ms <- select (motor_idx ml mo) (iv_y iv);
  do tq <- mo_torque mo ms;
  do st <- put (load_idx ml) (firstn (ml_n ml) (iv_y iv)) st;
  do st <- put [dc_torque_idx] [tq] st;
  do cs <- select (mo_cidx mo) (skipn (ml_n ml) (iv_y iv));
  do st <- put dc_currents_idx cs st;
  do st <- put dc_voltages_idx (iv_u iv) st;
  put dc_usup_idx (iv_sup iv) st.
(** 270-286 *)
Definition dc_obs (mech ms u us : list R) : res (list R) :=
  do tq <- mo_torque mo ms;
  do cs <- select (mo_cidx mo) ms;
  Ok (firstn (ml_n ml) (mech ++ ms) ++ [tq] ++ cs ++ u ++ us).
End Dc.

(** ** SynchronousMotorSystem *)
Section Sync.
Context (ml : mload) (mo : motor (list R)).
(** Angle and abc currents, 489-493 and 503-505. *)
Definition sync_view (y : list R) : res (R * list R) :=
  do eps <- item y (eps_idx ml mo);
  do i <- select (cur_idx ml mo) y;
  do i <- mo_i_in mo i;
  do abc <- dq_to_abc i eps false;
  Ok (eps, abc).
Definition sync_volt (v : R * list R) (u : list R) : res (list R) := abc_to_dq u (fst v) false.
(** The action in dq control space, 491-492 *)
Definition sync_act_dq (v : R * list R) (a : list R) : res (list R) := dq_to_abc a (fst v) false.
(** 516-524; [eps] in [i_abc] is the angle from before the last integration. *)
Definition sync_out (v : R * list R) (iv : interval (list R)) (st : list R) : res (list R) :=
  do ms <- select (motor_idx ml mo) (iv_y iv);
  do tq <- mo_torque mo ms;
  do mech <- select (load_idx ml) (iv_y iv);
  do i_dq <- select (cur_idx ml mo) (iv_y iv);
  do i_abc <- dq_to_abc i_dq (fst v) false;
  do eps <- item (iv_y iv) (eps_idx ml mo);
  Ok (mech ++ [tq] ++ i_abc ++ i_dq ++ iv_u iv ++ iv_par iv ++ [wrap_angle eps] ++ iv_sup iv).
(** 535-560 *)
Definition sync_obs (mech ms u us : list R) : res (list R) :=
  let y := mech ++ ms in
  do eps <- item y (eps_idx ml mo);
  let eps := wrap eps in
  do u_dq <- abc_to_dq u eps false;
  do i_dq <- select (cur_idx ml mo) y;
  do i_abc <- dq_to_abc i_dq eps false;
  do tq <- mo_torque mo ms;
  Ok (mech ++ [tq] ++ i_abc ++ i_dq ++ u ++ u_dq ++ [eps] ++ us).

(** ** ExternallyExcitedSynchronousMotorSystem: three currents d, q, e and four
    converter voltages a, b, c, e. *)
(** 621-624.  The re-evaluation in the loop (637) adds a list and an array; it is
    never reached because 632 raises first ([eesm_volt] below). *)
Definition eesm_view (y : list R) : res (R * list R) :=
  do eps <- item y (eps_idx ml mo);
  do i <- select (cur_idx ml mo) y;
  do i <- mo_i_in mo i;
  do abc <- dq_to_abc (firstn 2 i) eps false;
  Ok (eps, abc ++ skipn 2 i).
(** 632, inside the loop *)
Definition eesm_volt (v : R * list R) (u : list R) : res (list R) :=
  do d <- abc_to_dq (firstn 2 u) (fst v) false; Ok (d ++ skipn 2 u).
(** 643, after the loop *)
Definition eesm_volt_last (v : R * list R) (u : list R) : res (list R) :=
  do d <- abc_to_dq (firstn 3 u) (fst v) false; Ok (d ++ skipn 3 u).
(** 648-656 *)
Definition eesm_out (v : R * list R) (iv : interval (list R)) (st : list R) : res (list R) :=
  do ms <- select (motor_idx ml mo) (iv_y iv);
  do tq <- mo_torque mo ms;
  do mech <- select (load_idx ml) (iv_y iv);
  do i_dqe <- select (cur_idx ml mo) (iv_y iv);
  do i_abc <- dq_to_abc (firstn 2 i_dqe) (fst v) false;
  do eps <- item (iv_y iv) (eps_idx ml mo);
  Ok (mech ++ [tq] ++ i_abc ++ i_dqe ++ firstn 3 (iv_u iv) ++ iv_par iv ++ [wrap_angle eps] ++ iv_sup iv).
(** 667-692: the converter voltages are written as a block a, b, c, e in front of
    the dq voltages. *)
Definition eesm_obs (mech ms u us : list R) : res (list R) :=
  let y := mech ++ ms in
  do eps <- item y (eps_idx ml mo);
  let eps := wrap eps in
  do u_dq <- abc_to_dq (firstn 3 u) eps false;
  do i_dq <- select (cur_idx ml mo) y;
  do i_abc <- dq_to_abc (firstn 2 i_dq) eps false;
  do tq <- mo_torque mo ms;
  Ok (mech ++ [tq] ++ i_abc ++ i_dq ++ u ++ u_dq ++ [eps] ++ us).

(** ** SquirrelCageInductionMotorSystem: motor states i_salpha, i_sbeta, psi_ralpha,
    psi_rbeta, epsilon *)
(** [calculate_field_angle], 765-769; [_ode_flux_idx] are motor states 2 and 3. *)
Definition field_angle (y : list R) : res R :=
  do a <- item y (ml_n ml + 2); do b <- item y (ml_n ml + 3); Ok (np_arctan2 b a).
Definition stator_idx : list nat := [ml_n ml; ml_n ml + 1]%nat.
(** 775-780 and 790-792 *)
Definition scim_view (y : list R) : res (R * list R) :=
  do e <- field_angle y;
  do i <- select stator_idx y;
  do i <- mo_i_in mo i;
  do abc <- alphabeta_to_abc i;
  Ok (e, abc).
Definition scim_volt (v : R * list R) (u : list R) : res (list R) := abc_to_alphabeta u.
Definition scim_act_dq (v : R * list R) (a : list R) : res (list R) := dq_to_abc a (fst v) false.
(** 798, 804-813 ([u_dq] is computed before the integration from the same values) *)
Definition scim_out (v : R * list R) (iv : interval (list R)) (st : list R) : res (list R) :=
  do u_dq <- abc_to_dq (iv_u iv) (fst v) false;
  do ms <- select (motor_idx ml mo) (iv_y iv);
  do tq <- mo_torque mo ms;
  do mech <- select (load_idx ml) (iv_y iv);
  do i <- select stator_idx (iv_y iv);
  do i_dq <- alphabeta_to_dq i (fst v) false;
  do i_abc <- dq_to_abc i_dq (fst v) false;
  do eps <- item (iv_y iv) (eps_idx ml mo);
  Ok (mech ++ [tq] ++ i_abc ++ i_dq ++ iv_u iv ++ u_dq ++ [wrap_angle eps] ++ iv_sup iv).
(** 828-846 *)
Definition scim_obs (mech ms u us : list R) : res (list R) :=
  let y := mech ++ ms in
  do eps <- item y (eps_idx ml mo);
  do efs <- field_angle y;
  do u_dq <- abc_to_dq u efs false;
  do i <- select stator_idx y;
  do i_dq <- alphabeta_to_dq i efs false;
  do i_abc <- dq_to_abc i_dq efs false;
  do tq <- mo_torque mo ms;
  Ok (mech ++ [tq] ++ i_abc ++ i_dq ++ u ++ u_dq ++ [wrap eps] ++ us).
End Sync.

(** ** DoublyFedInductionMotorSystem: [sd] and [rd] are the numbers of stator and rotor
    voltages, [im] the motor parameters. *)
Section Dfim.
Context (ml : mload) (mo : motor (list (list R))) (im : im_par) (sd rd : nat).
(** [calculate_rotor_current], 954-966 *)
Definition rotor_alphabeta (y : list R) : res (list R) :=
  do ia <- item y (ml_n ml); do ib <- item y (ml_n ml + 1);
  do pa <- item y (ml_n ml + 2); do pb <- item y (ml_n ml + 3);
  let lr := im_lr im in
  Ok [1 / lr * pa - im_lm im / lr * ia; 1 / lr * pb - im_lm im / lr * ib].
(** Field angle, rotor angle, stator and rotor currents for the converter, 982-986
    and 1004-1007: the rotor currents are not turned into the rotor frame. *)
Definition dfim_view (y : list R) : res (R * R * list R * list R) :=
  do ef <- field_angle ml y;
  do eel <- item y (eps_idx ml mo);
  do i <- select (stator_idx ml) y;
  do i <- mo_i_in mo i;
  do is <- alphabeta_to_abc i;
  do r <- rotor_alphabeta y;
  do ir <- alphabeta_to_abc r;
  Ok (ef, eel, is, ir).
Definition dfim_cur (v : R * R * list R * list R) : list R := let '(_, _, is, ir) := v in is ++ ir.
Definition stator_part (u : list R) : list R := firstn sd u.
Definition rotor_part (u : list R) : list R := firstn rd (skipn sd u).
(** 994-1000 and 1013-1020 *)
Definition dfim_volt (v : R * R * list R * list R) (u : list R) : res (list (list R)) :=
  let '(ef, eel, _, _) := v in
  do urdq <- abc_to_dq (rotor_part u) (ef - eel) false;
  do us <- abc_to_alphabeta (stator_part u);
  do ur <- dq_to_alphabeta urdq ef false;
  Ok [us; ur].
(** 1015-1016, 1025-1053 *)
Definition dfim_out (v : R * R * list R * list R) (iv : interval (list (list R))) (st : list R) : res (list R) :=
  let '(ef, eel, _, _) := v in
  do usdq <- abc_to_dq (stator_part (iv_u iv)) ef false;
  do urdq <- abc_to_dq (rotor_part (iv_u iv)) (ef - eel) false;
  do ms <- select (motor_idx ml mo) (iv_y iv);
  do tq <- mo_torque mo ms;
  do mech <- select (load_idx ml) (iv_y iv);
  do i <- select (stator_idx ml) (iv_y iv);
  do isdq <- alphabeta_to_dq i ef false;
  do isabc <- dq_to_abc isdq ef false;
  do r <- rotor_alphabeta (iv_y iv);
  do irdq <- alphabeta_to_dq r ef false;
  do irdef <- dq_to_abc irdq (ef - eel) false;
  do eps <- item (iv_y iv) (eps_idx ml mo);
  Ok (mech ++ [tq] ++ isabc ++ isdq ++ irdef ++ irdq ++ stator_part (iv_u iv) ++ usdq ++ rotor_part (iv_u iv) ++ urdq ++
      [wrap_angle eps] ++ iv_sup iv).
(** 1068-1112 *)
Definition dfim_obs (mech ms u us : list R) : res (list R) :=
  let y := mech ++ ms in
  do eel <- item y (eps_idx ml mo);
  do ef <- field_angle ml y;
  let eel := wrap eel in let ef := wrap ef in
  do usdq <- abc_to_dq (stator_part u) ef false;
  do urdq <- abc_to_dq (rotor_part u) (ef - eel) false;
  do i <- select (stator_idx ml) y;
  do isdq <- alphabeta_to_dq i ef false;
  do isabc <- dq_to_abc isdq ef false;
  do r <- rotor_alphabeta y;
  do irdq <- alphabeta_to_dq r (ef - eel) false;
  do irdef <- dq_to_abc irdq (ef - eel) false;
  do tq <- mo_torque mo ms;
  Ok (mech ++ [tq] ++ isabc ++ isdq ++ irdef ++ irdq ++ stator_part u ++ usdq ++ rotor_part u ++ urdq ++ [eel] ++ us).
End Dfim.

(** ** The concrete components of the repository in this form *)
Definition fin_if : conv_if fin Z :=
  {| cv_set_action := fin_set_action; cv_convert := fin_convert; cv_i_sup := fin_i_sup; cv_reset := fin_reset |}.
Definition con_if : conv_if con (list R) :=
  {| cv_set_action := con_set_action; cv_convert := fun c i t => (c, con_convert c i t); cv_i_sup := con_i_sup; cv_reset := con_reset |}.
Definition multi_if : conv_if (list fin) (list Z) :=
  {| cv_set_action := fm_set_action; cv_convert := fm_convert; cv_i_sup := fm_i_sup; cv_reset := fm_reset |}.
Definition ideal_if : supply_if ideal :=
  {| sp_get := fun s t i => (s, Ok (ideal_get s t i)); sp_reset := fun s => (s, Ok (ideal_reset s)) |}.
Definition rc_if : supply_if rc := {| sp_get := rc_get; sp_reset := rc_reset |}.
(** AC supplies; the phase drawn in [reset] is an argument. *)
Definition ac_if (draw : R) : supply_if ac :=
  {| sp_get := fun s t i => (s, Ok (ac_get s t)); sp_reset := fun s => let (s', u) := ac_reset s draw in (s', Ok u) |}.
(** Loads with one state, the speed. *)
Definition poly_load (p : poly) : mload := {| ml_n := 1; ml_omega := 0; ml_ode := poly_ode p |}.
Definition const_load : mload := {| ml_n := 1; ml_omega := 0; ml_ode := const_ode |}.
(** Motors with their CURRENTS_IDX and CURRENTS: dc_motor.py 59-60, dc_series_motor.py 45-46,
    dc_permanently_excited_motor.py 42-43, synchronous_motor.py 90-91,
    externally_excited_synchronous_motor.py 96-97, induction_motor.py 96-99 *)
Definition extex_motor (m : dc_par) : motor (list R) :=
  {| mo_n := 2; mo_nc := 2; mo_cidx := [0; 1]%nat; mo_ode := dc_ode m; mo_torque := dc_torque m; mo_i_in := dc_i_in |}.
Definition shunt_motor (m : dc_par) : motor (list R) :=
  {| mo_n := 2; mo_nc := 2; mo_cidx := [0; 1]%nat; mo_ode := shunt_ode m; mo_torque := dc_torque m; mo_i_in := shunt_i_in |}.
Definition series_motor (m : dc_par) : motor (list R) :=
  {| mo_n := 1; mo_nc := 1; mo_cidx := [0]%nat; mo_ode := series_ode m; mo_torque := series_torque m; mo_i_in := series_i_in |}.
Definition perm_motor (m : perm_par) : motor (list R) :=
  {| mo_n := 1; mo_nc := 1; mo_cidx := [0]%nat; mo_ode := perm_ode m; mo_torque := perm_torque m; mo_i_in := perm_i_in |}.
Definition pmsm_motor (m : pmsm_par) : motor (list R) :=
  {| mo_n := 3; mo_nc := 2; mo_cidx := [0; 1]%nat; mo_ode := pmsm_ode m; mo_torque := pmsm_torque m; mo_i_in := sync_i_in |}.
Definition synrm_motor (m : synrm_par) : motor (list R) :=
  {| mo_n := 3; mo_nc := 2; mo_cidx := [0; 1]%nat; mo_ode := synrm_ode m; mo_torque := synrm_torque m; mo_i_in := sync_i_in |}.
Definition eesm_motor (m : eesm_par) : motor (list R) :=
  {| mo_n := 4; mo_nc := 3; mo_cidx := [0; 1; 2]%nat; mo_ode := eesm_ode m; mo_torque := eesm_torque m; mo_i_in := eesm_i_in |}.
Definition scim_motor (m : im_par) : motor (list R) :=
  {| mo_n := 5; mo_nc := 2; mo_cidx := [0; 1]%nat; mo_ode := scim_ode m; mo_torque := im_torque m; mo_i_in := im_i_in |}.
Definition dfim_motor (m : im_par) : motor (list (list R)) :=
  {| mo_n := 5; mo_nc := 2; mo_cidx := [0; 1]%nat; mo_ode := dfim_ode m; mo_torque := im_torque m; mo_i_in := im_i_in |}.
