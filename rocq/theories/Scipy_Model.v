(** The solvers behind the interface of OdeSolver, and physical systems with any of them:
    src/gym_electric_motor/physical_systems/solvers.py 4-249 and
    src/gym_electric_motor/physical_systems/physical_systems.py.

    scipy itself is not part of the repository: [scipy.integrate.ode], [solve_ivp] and
    [odeint] are arbitrary functions ([scipy] below) that may raise.  What the wrappers store,
    hand over and return is modelled. *)
From Verif Require Import PyBase Conv_Model Solver_Model PhysSys_Model.
Local Open Scope string_scope. Local Open Scope list_scope. Local Open Scope R_scope.

(** ** The interface, 20-76 *)
(** [t] and [y] are properties; a state that is None raises TypeError where the physical
    systems index it (physical_systems.py 174, 489, 621, 773, 970), so [so_y] raises it. *)
Record solver_if (E U J : Type) := {
  so_equation : rhs U -> option J -> E -> E;             (* set_system_equation *)
  so_initial : list R -> R -> E -> call E unit;          (* set_initial_value *)
  so_params : U -> E -> call E unit;                     (* set_f_params *)
  so_integrate : R -> E -> call E (list R);              (* integrate *)
  so_t : E -> res R;
  so_y : E -> res (list R) }.
Arguments so_equation {E U J}. Arguments so_initial {E U J}. Arguments so_params {E U J}.
Arguments so_integrate {E U J}. Arguments so_t {E U J}. Arguments so_y {E U J}.

(** ** EulerSolver, 79-136: the jacobian is stored and not used *)
Record euler_solver (U J : Type) := { es_eq : option (rhs U); es_jac : option J; es_e : euler U }.
Arguments es_eq {U J}. Arguments es_jac {U J}. Arguments es_e {U J}.
Definition euler_solver_new {U J} (n : nat) : euler_solver U J := {| es_eq := None; es_jac := None; es_e := euler_new n |}.
(** [integrate] without an equation calls None: TypeError (the division by nsteps comes
    first). *)
Definition euler_if {U J} : solver_if (euler_solver U J) U J :=
  {| so_equation := fun f j s => {| es_eq := Some f; es_jac := j; es_e := es_e s |};
     so_initial := fun y t s => ({| es_eq := es_eq s; es_jac := es_jac s; es_e := set_initial_value y t (es_e s) |}, Ok tt);
     so_params := fun p s => ({| es_eq := es_eq s; es_jac := es_jac s; es_e := set_f_params p (es_e s) |}, Ok tt);
     so_integrate := fun t s =>
       match es_eq s with
       | Some f => let (e, r) := integrate f (es_e s) t in ({| es_eq := es_eq s; es_jac := es_jac s; es_e := e |}, r)
       | None => (s, Err (match eu_n (es_e s) with O => ZeroDivisionError | _ => TypeError end))
       end;
     so_t := fun s => Ok (eu_t (es_e s));
     so_y := fun s => match eu_y (es_e s) with Some y => Ok y | None => Err TypeError end |}.

(** ** scipy *)
(** [K]: keyword arguments of the wrappers, [M]: what an integrator object of
    [scipy.integrate.ode] remembers (step sizes, history, [success]).  Parameters that were
    never set are [None].
    - [x_prepare kwargs n has_jac]: a new integrator after [reset(n, has_jac)];
    - [x_run]: [integrator.run(f, jac, y0, t0, t1, f_params, jac_params)]; the result holds the
      state and the time that were reached;
    - [x_ivp]: [solve_ivp] with the arguments of 209-216; of the result only [y] is read: [None]
      if the integration stopped before [t_eval] (then scipy leaves a list without [.T]), else
      the states at the reached points;
    - [x_odeint]: [odeint] with the arguments of 238-246: the rows of the result. *)
Record scipy (U J K M : Type) := {
  x_prepare : K -> nat -> bool -> M;
  x_run : M -> rhs U -> option J -> list R -> R -> R -> option U -> option U -> M * res (list R * R);
  x_ivp : K -> option string -> option (option J) -> option (rhs U) -> R -> R -> option (list R) -> option U -> res (option (list (list R)));
  x_odeint : K -> option (rhs U) -> option J -> option (list R) -> R -> R -> option U -> res (list (list R)) }.
Arguments x_prepare {U J K M}. Arguments x_run {U J K M}. Arguments x_ivp {U J K M}. Arguments x_odeint {U J K M}.

Section Wrappers.
Context {U J K M : Type} (X : scipy U J K M).

(** [a[-1]] of an array of rows. *)
Definition last_row (rows : list (list R)) : res (list R) :=
  match rev rows with r :: _ => Ok r | [] => Err IndexError end.

(** ** ScipyOdeSolver, 139-184 *)
(** The object [scipy.integrate.ode(f, jac)]. *)
Record ode_obj := { oo_f : rhs U; oo_jac : option J; oo_fp : option U; oo_jp : option U; oo_t : R; oo_y : list R; oo_mem : M }.
(** Attributes: the keyword arguments (164-165), those of the base class, [_ode]. *)
Record ode_solver := { od_k : K; od_eq : option (rhs U); od_jac : option J; od_par : option U; od_ode : option ode_obj }.
Definition ode_solver_new (k : K) : ode_solver := {| od_k := k; od_eq := None; od_jac := None; od_par := None; od_ode := None |}.
Definition has {A} (o : option A) : bool := match o with Some _ => true | None => false end.
(** 167-170: a new object; [set_integrator] starts it with time 0 and state [0.]. *)
Definition od_set_equation (f : rhs U) (j : option J) (s : ode_solver) : ode_solver :=
  {| od_k := od_k s; od_eq := Some f; od_jac := j; od_par := od_par s;
     od_ode := Some {| oo_f := f; oo_jac := j; oo_fp := None; oo_jp := None; oo_t := 0; oo_y := [0]; oo_mem := x_prepare X (od_k s) 1 (has j) |} |}.
Definition with_ode (o : option ode_obj) (s : ode_solver) : ode_solver :=
  {| od_k := od_k s; od_eq := od_eq s; od_jac := od_jac s; od_par := od_par s; od_ode := o |}.
(** 172-174; [None.set_initial_value] raises AttributeError.  [ode.set_initial_value] resets
    the integrator. *)
Definition od_set_initial (y : list R) (t : R) (s : ode_solver) : call ode_solver unit :=
  match od_ode s with
  | None => (s, Err AttributeError)
  | Some o => (with_ode (Some {| oo_f := oo_f o; oo_jac := oo_jac o; oo_fp := oo_fp o; oo_jp := oo_jp o; oo_t := t; oo_y := y;
                                 oo_mem := x_prepare X (od_k s) (length y) (has (oo_jac o)) |}) s, Ok tt)
  end.
(** 176-180 *)
Definition od_set_params (p : U) (s : ode_solver) : call ode_solver unit :=
  let s1 := {| od_k := od_k s; od_eq := od_eq s; od_jac := od_jac s; od_par := Some p; od_ode := od_ode s |} in
  match od_ode s with
  | None => (s1, Err AttributeError)
  | Some o => (with_ode (Some {| oo_f := oo_f o; oo_jac := oo_jac o; oo_fp := Some p; oo_jp := Some p; oo_t := oo_t o; oo_y := oo_y o; oo_mem := oo_mem o |}) s1, Ok tt)
  end.
(** 182-184; [ode.integrate] stores state and time when the integrator returns. *)
Definition od_integrate (t : R) (s : ode_solver) : call ode_solver (list R) :=
  match od_ode s with
  | None => (s, Err AttributeError)
  | Some o =>
      let (m, r) := x_run X (oo_mem o) (oo_f o) (oo_jac o) (oo_y o) (oo_t o) t (oo_fp o) (oo_jp o) in
      match r with
      | Ok (y', t') => (with_ode (Some {| oo_f := oo_f o; oo_jac := oo_jac o; oo_fp := oo_fp o; oo_jp := oo_jp o; oo_t := t'; oo_y := y'; oo_mem := m |}) s, Ok y')
      | Err e => (with_ode (Some {| oo_f := oo_f o; oo_jac := oo_jac o; oo_fp := oo_fp o; oo_jp := oo_jp o; oo_t := oo_t o; oo_y := oo_y o; oo_mem := m |}) s, Err e)
      end
  end.
(** 149-155 *)
Definition ode_if : solver_if ode_solver U J :=
  {| so_equation := od_set_equation; so_initial := od_set_initial; so_params := od_set_params; so_integrate := od_integrate;
     so_t := fun s => match od_ode s with Some o => Ok (oo_t o) | None => Err AttributeError end;
     so_y := fun s => match od_ode s with Some o => Ok (oo_y o) | None => Err AttributeError end |}.

(** ** ScipySolveIvpSolver, 187-219 *)
(** [_solver_kwargs] are the entries "method" and "jac" and the rest; [vp_kjac = None]: no
    entry "jac". *)
Record ivp_solver := {
  vp_k : K; vp_method : option string; vp_kjac : option (option J);
  vp_eq : option (rhs U); vp_jac : option J; vp_par : option U; vp_t : R; vp_y : option (list R) }.
Definition ivp_solver_new (k : K) (method : option string) (jac : option (option J)) : ivp_solver :=
  {| vp_k := k; vp_method := method; vp_kjac := jac; vp_eq := None; vp_jac := None; vp_par := None; vp_t := 0; vp_y := None |}.
(** 204: [method in ["Radau", "BDF", "LSODA"]] *)
Definition implicit_method (m : option string) : bool :=
  match m with Some s => existsb (String.eqb s) ["Radau"; "BDF"; "LSODA"] | None => false end.
(** 198-205 *)
Definition vp_set_equation (f : rhs U) (j : option J) (s : ivp_solver) : ivp_solver :=
  {| vp_k := vp_k s; vp_method := vp_method s; vp_kjac := if implicit_method (vp_method s) then Some j else vp_kjac s;
     vp_eq := Some f; vp_jac := j; vp_par := vp_par s; vp_t := vp_t s; vp_y := vp_y s |}.
Definition vp_with (p : option U) (t : R) (y : option (list R)) (s : ivp_solver) : ivp_solver :=
  {| vp_k := vp_k s; vp_method := vp_method s; vp_kjac := vp_kjac s; vp_eq := vp_eq s; vp_jac := vp_jac s; vp_par := p; vp_t := t; vp_y := y |}.
(** 207-219: the time is stored before the result is read. *)
Definition vp_integrate (t : R) (s : ivp_solver) : call ivp_solver (list R) :=
  match x_ivp X (vp_k s) (vp_method s) (vp_kjac s) (vp_eq s) (vp_t s) t (vp_y s) (vp_par s) with
  | Err e => (s, Err e)
  | Ok rows =>
      let s1 := vp_with (vp_par s) t (vp_y s) s in
      match (match rows with None => Err AttributeError | Some rows => last_row rows end) with
      | Err e => (s1, Err e)
      | Ok y => (vp_with (vp_par s) t (Some y) s, Ok y)
      end
  end.
Definition ivp_if : solver_if ivp_solver U J :=
  {| so_equation := vp_set_equation;
     so_initial := fun y t s => (vp_with (vp_par s) t (Some y) s, Ok tt);
     so_params := fun p s => (vp_with (Some p) (vp_t s) (vp_y s) s, Ok tt);
     so_integrate := vp_integrate;
     so_t := fun s => Ok (vp_t s);
     so_y := fun s => match vp_y s with Some y => Ok y | None => Err TypeError end |}.

(** ** ScipyOdeIntSolver, 222-249 *)
Record oint_solver := { ot_k : K; ot_eq : option (rhs U); ot_jac : option J; ot_par : option U; ot_t : R; ot_y : option (list R) }.
Definition oint_solver_new (k : K) : oint_solver := {| ot_k := k; ot_eq := None; ot_jac := None; ot_par := None; ot_t := 0; ot_y := None |}.
Definition ot_with (p : option U) (t : R) (y : option (list R)) (s : oint_solver) : oint_solver :=
  {| ot_k := ot_k s; ot_eq := ot_eq s; ot_jac := ot_jac s; ot_par := p; ot_t := t; ot_y := y |}.
(** 236-249 *)
Definition ot_integrate (t : R) (s : oint_solver) : call oint_solver (list R) :=
  match x_odeint X (ot_k s) (ot_eq s) (ot_jac s) (ot_y s) (ot_t s) t (ot_par s) with
  | Err e => (s, Err e)
  | Ok rows =>
      match last_row rows with
      | Err e => (ot_with (ot_par s) t (ot_y s) s, Err e)
      | Ok y => (ot_with (ot_par s) t (Some y) s, Ok y)
      end
  end.
Definition oint_if : solver_if oint_solver U J :=
  {| so_equation := fun f j s => {| ot_k := ot_k s; ot_eq := Some f; ot_jac := j; ot_par := ot_par s; ot_t := ot_t s; ot_y := ot_y s |};
     so_initial := fun y t s => (ot_with (ot_par s) t (Some y) s, Ok tt);
     so_params := fun p s => (ot_with (Some p) (ot_t s) (ot_y s) s, Ok tt);
     so_integrate := ot_integrate;
     so_t := fun s => Ok (ot_t s);
     so_y := fun s => match ot_y s with Some y => Ok y | None => Err TypeError end |}.
End Wrappers.
Arguments ode_obj : clear implicits. Arguments ode_solver : clear implicits.
Arguments ivp_solver : clear implicits. Arguments oint_solver : clear implicits.

(** ** Physical systems with any solver *)
(** [simulate] and [reset] as in [PhysSys_Model], with the solver behind its interface. *)
Section Simulate.
Context {C S A U V E J : Type}.
Context (cv : conv_if C A) (sp : supply_if S) (so : solver_if E U J) (tau : R).

Record gsys := { gs_c : C; gs_s : S; gs_e : E; gs_t : R; gs_k : nat; gs_state : list R }.
Definition g_with_c (c : C) (x : gsys) : gsys :=
  {| gs_c := c; gs_s := gs_s x; gs_e := gs_e x; gs_t := gs_t x; gs_k := gs_k x; gs_state := gs_state x |}.
Definition g_with_s (s : S) (x : gsys) : gsys :=
  {| gs_c := gs_c x; gs_s := s; gs_e := gs_e x; gs_t := gs_t x; gs_k := gs_k x; gs_state := gs_state x |}.
Definition g_with_e (e : E) (x : gsys) : gsys :=
  {| gs_c := gs_c x; gs_s := gs_s x; gs_e := e; gs_t := gs_t x; gs_k := gs_k x; gs_state := gs_state x |}.

(** [set_f_params(u_in)] and [integrate(t)], e.g. 182-183 of physical_systems.py *)
Definition advance_solver (p : U) (t : R) (e : E) : call E (list R) :=
  let (e1, r) := so_params so p e in
  match r with Err er => (e1, Err er) | Ok _ => so_integrate so t e1 end.

(** 178-183, 186-191 and the same lines of the other systems *)
Definition g_interval (volt : list R -> res U) (i_in : list R) (x : gsys) (t : R) : call gsys (interval U) :=
  match cv_i_sup cv (gs_c x) i_in with
  | Err e => (x, Err e)
  | Ok i_sup =>
      let (s', us) := sp_get sp (gs_s x) (gs_t x) i_sup in
      let x1 := g_with_s s' x in
      match (do us <- us; do now <- so_t so (gs_e x); Ok (us, now)) with
      | Err e => (x1, Err e)
      | Ok (us, now) =>
          let (c', u) := cv_convert cv (gs_c x1) i_in now in
          let x2 := g_with_c c' x1 in
          match u with
          | Err e => (x2, Err e)
          | Ok u =>
              let u_in := scale_voltages u us in
              match volt u_in with
              | Err e => (x2, Err e)
              | Ok p =>
                  let (e', y) := advance_solver p t (gs_e x2) in
                  (g_with_e e' x2, do y <- y; Ok {| iv_u := u_in; iv_sup := us; iv_par := p; iv_y := y |})
              end
          end
      end
  end.

Context (view : list R -> res V) (cur : V -> list R) (volt volt_last : V -> list R -> res U).
Fixpoint g_intervals (v : V) (x : gsys) (ts : list R) : call gsys V :=
  match ts with
  | [] => (x, Ok v)
  | t :: ts' =>
      let (x', r) := g_interval (volt v) (cur v) x t in
      match r with
      | Err e => (x', Err e)
      | Ok iv => match view (iv_y iv) with Err e => (x', Err e) | Ok v' => g_intervals v' x' ts' end
      end
  end.

(** [simulate], 171-203, 487-525, 619-657, 771-814, 968-1054 *)
Context (act : V -> A -> res A) (out : V -> interval U -> list R -> res (list R)) (limits : list lim).
Definition g_simulate (a : A) (x : gsys) : call gsys (list R) :=
  match (do y0 <- so_y so (gs_e x); do v <- view y0; do a' <- act v a; Ok (v, a')) with
  | Err e => (x, Err e)
  | Ok (v, a') =>
      let (c', ts) := cv_set_action cv (gs_c x) a' (gs_t x) in
      let x1 := g_with_c c' x in
      match ts with
      | Err e => (x1, Err e)
      | Ok ts =>
          let (x2, v) := g_intervals v x1 (removelast ts) in
          match v with
          | Err e => (x2, Err e)
          | Ok v =>
              let (x3, iv) := g_interval (volt_last v) (cur v) x2 (gs_t x2 + tau) in
              match (do iv <- iv; do now <- so_t so (gs_e x3); Ok (iv, now)) with
              | Err e => (x3, Err e)
              | Ok (iv, now) =>
                  let x4 := {| gs_c := gs_c x3; gs_s := gs_s x3; gs_e := gs_e x3; gs_t := now;
                               gs_k := Datatypes.S (gs_k x3); gs_state := gs_state x3 |} in
                  match out v iv (gs_state x4) with
                  | Err e => (x4, Err e)
                  | Ok st =>
                      ({| gs_c := gs_c x4; gs_s := gs_s x4; gs_e := gs_e x4; gs_t := gs_t x4; gs_k := gs_k x4; gs_state := st |},
                       np_div st limits)
                  end
              end
          end
      end
  end.

(** [reset], 256-287, 527-561, 659-693, 816-847, 1056-1113: time and step counter are set
    before the solver. *)
Context (obs : list R -> list R -> list R -> list R -> res (list R)).
Definition g_reset (init : res (list R * list R)) (x : gsys) : call gsys (list R) :=
  match init with
  | Err e => (x, Err e)
  | Ok (mech, ms) =>
      let (s', us) := sp_reset sp (gs_s x) in
      let x1 := g_with_s s' x in
      match us with
      | Err e => (x1, Err e)
      | Ok us =>
          let (c', u) := cv_reset cv (gs_c x1) in
          let x2 := g_with_c c' x1 in
          match (do u <- u; obs mech ms (scale_voltages u us) us) with
          | Err e => (x2, Err e)
          | Ok st =>
              let (e', r) := so_initial so (mech ++ ms) 0 (gs_e x2) in
              let x3 := {| gs_c := gs_c x2; gs_s := gs_s x2; gs_e := e'; gs_t := 0; gs_k := 0; gs_state := gs_state x2 |} in
              match r with Err e => (x3, Err e) | Ok _ => (x3, np_div st limits) end
          end
      end
  end.
End Simulate.
Arguments gsys : clear implicits.
