(** Vocabulary for solvers behind the interface of OdeSolver. *)
From Verif Require Import PyBase Conv_Model Solver_Model PhysSys_Model PhysSys_Spec Scipy_Model.

(** What a sequence of calls returns or raises, one after the other. *)
Fixpoint outcomes {X A} (rst : res (list R * list R) -> X -> call X (list R)) (sim : A -> X -> call X (list R))
    (ops : list (op A)) (x : X) : list (res (list R)) :=
  match ops with
  | [] => []
  | o :: ops' => let (x', r) := match o with OReset i => rst i x | OStep a => sim a x end in r :: outcomes rst sim ops' x'
  end.
Fixpoint final {X A} (rst : res (list R * list R) -> X -> call X (list R)) (sim : A -> X -> call X (list R))
    (ops : list (op A)) (x : X) : X :=
  match ops with
  | [] => x
  | o :: ops' => final rst sim ops' (fst match o with OReset i => rst i x | OStep a => sim a x end)
  end.

(** A physical system with EulerSolver as a system with any solver. *)
Definition embed {C S U J} (f : rhs U) (j : option J) (x : sys C S U) : gsys C S (euler_solver U J) :=
  {| gs_c := sy_c x; gs_s := sy_s x; gs_e := {| es_eq := Some f; es_jac := j; es_e := sy_e x |};
     gs_t := sy_t x; gs_k := sy_k x; gs_state := sy_state x |}.

(** A new physical system: the solver has been given the equation (constructor, 82). *)
Definition new_gsys {C S E U J} (so : solver_if E U J) (f : rhs U) (j : option J) (c : C) (s : S) (e : E) (n : nat) : gsys C S E :=
  {| gs_c := c; gs_s := s; gs_e := so_equation so f j e; gs_t := 0; gs_k := 0; gs_state := repeat 0 n |}.

(** Two solvers of which nothing outside can tell the difference: [W] holds when both have
    the equation, [Q] when both have started. *)
Record alike {E1 E2 U J} (s1 : solver_if E1 U J) (s2 : solver_if E2 U J) (W Q : E1 -> E2 -> Prop) : Prop := {
  al_weak : forall a b, Q a b -> W a b;
  al_t : forall a b, Q a b -> so_t s1 a = so_t s2 b;
  al_y : forall a b, Q a b -> so_y s1 a = so_y s2 b;
  al_initial : forall a b y t, W a b -> snd (so_initial s1 y t a) = Ok tt /\ snd (so_initial s2 y t b) = Ok tt /\
    Q (fst (so_initial s1 y t a)) (fst (so_initial s2 y t b));
  al_advance : forall a b p t, Q a b -> snd (advance_solver s1 p t a) = snd (advance_solver s2 p t b) /\
    Q (fst (advance_solver s1 p t a)) (fst (advance_solver s2 p t b)) }.

(** [flow p t0 t1 y]: the state at t1 of the system with input p that has state y at t0.  The
    three entries of scipy solve the equation [f]: they return [flow] or raise as it does,
    whatever jacobian, method, keyword arguments and memory they work with. *)
Definition ends_in (rows : list (list R)) (y : list R) : Prop := exists pre, rows = pre ++ [y].
Definition solves {U J K M} (X : scipy U J K M) (f : rhs U) (flow : U -> R -> R -> list R -> res (list R)) : Prop :=
  (forall m j y t0 t1 p, exists m', x_run X m f j y t0 t1 (Some p) (Some p) = (m', do y' <- flow p t0 t1 y; Ok (y', t1))) /\
  (forall k me j y t0 t1 p, match flow p t0 t1 y with
     | Ok y' => exists rows, x_ivp X k me j (Some f) t0 t1 (Some y) (Some p) = Ok (Some rows) /\ ends_in rows y'
     | Err e => x_ivp X k me j (Some f) t0 t1 (Some y) (Some p) = Err e end) /\
  (forall k j y t0 t1 p, match flow p t0 t1 y with
     | Ok y' => exists rows, x_odeint X k (Some f) j (Some y) t0 t1 (Some p) = Ok rows /\ ends_in rows y'
     | Err e => x_odeint X k (Some f) j (Some y) t0 t1 (Some p) = Err e end).

(** A solver that ends where it was asked to: after [set_f_params] time and state are what
    they were, after [integrate(t)] the time is t and the state is what was returned. *)
Record punctual {E U J} (so : solver_if E U J) : Prop := {
  pu_params : forall p e, so_t so (fst (so_params so p e)) = so_t so e /\ so_y so (fst (so_params so p e)) = so_y so e;
  pu_initial : forall y t e, snd (so_initial so y t e) = Ok tt ->
    so_t so (fst (so_initial so y t e)) = Ok t /\ so_y so (fst (so_initial so y t e)) = Ok y;
  pu_integrate : forall t e y, snd (so_integrate so t e) = Ok y ->
    so_t so (fst (so_integrate so t e)) = Ok t /\ so_y so (fst (so_integrate so t e)) = Ok y }.

(** Calls of the interface in any order. *)
Inductive sop (U J : Type) := SEq (f : rhs U) (j : option J) | SInit (y : list R) (t : R) | SPar (p : U) | SInt (t : R).
Arguments SEq {U J}. Arguments SInit {U J}. Arguments SPar {U J}. Arguments SInt {U J}.
Definition s_step {E U J} (so : solver_if E U J) (o : sop U J) (e : E) : E :=
  match o with
  | SEq f j => so_equation so f j e
  | SInit y t => fst (so_initial so y t e)
  | SPar p => fst (so_params so p e)
  | SInt t => fst (so_integrate so t e)
  end.
Definition s_run {E U J} (so : solver_if E U J) (ops : list (sop U J)) (e : E) : E := fold_left (fun e o => s_step so o e) ops e.
(** Equation and jacobian of the last [SEq]; parameters of the last [SPar]. *)
Definition last_eq {U J} (ops : list (sop U J)) : option (rhs U * option J) :=
  fold_left (fun acc o => match o with SEq f j => Some (f, j) | _ => acc end) ops None.

(** A solver that keeps working: [B] holds when it has the equation, [Q n] when it runs with
    n states; inputs satisfy [PP]. *)
Record solver_total {E U J} (so : solver_if E U J) (PP : U -> Prop) (n : nat) (B Q : E -> Prop) : Prop := {
  st_weak : forall e, Q e -> B e;
  st_initial : forall y t e, B e -> length y = n -> exists e', so_initial so y t e = (e', Ok tt) /\ Q e';
  st_advance : forall p t e, Q e -> PP p -> exists e' y, advance_solver so p t e = (e', Ok y) /\ length y = n /\ Q e' /\ so_y so e' = Ok y;
  st_t : forall e, Q e -> exists t, so_t so e = Ok t;
  st_y : forall e, Q e -> exists y, so_y so e = Ok y /\ length y = n }.

(** scipy keeps working on the equation [f] with [n] states and inputs in [PP]: every call
    returns a state of the right length (at whatever time it stopped). *)
Definition keeps_working {U J K M} (X : scipy U J K M) (f : rhs U) (PP : U -> Prop) (n : nat) : Prop :=
  (forall m j y t0 t1 p, length y = n -> PP p -> exists m' y' t', x_run X m f j y t0 t1 (Some p) (Some p) = (m', Ok (y', t')) /\ length y' = n) /\
  (forall k me j y t0 t1 p, length y = n -> PP p -> exists pre y', x_ivp X k me j (Some f) t0 t1 (Some y) (Some p) = Ok (Some (pre ++ [y'])) /\ length y' = n) /\
  (forall k j y t0 t1 p, length y = n -> PP p -> exists pre y', x_odeint X k (Some f) j (Some y) t0 t1 (Some p) = Ok (pre ++ [y']) /\ length y' = n).
(** The right hand side is defined on states of length [n] for inputs in [PP]. *)
Definition defined_on {U} (f : rhs U) (PP : U -> Prop) (n : nat) : Prop :=
  forall p t y, PP p -> length y = n -> exists d, f p t y = Ok d /\ length d = n.
