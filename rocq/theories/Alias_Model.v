(** Who may keep a result of the system equation: [SCMLSystem._system_equation]
    (src/gym_electric_motor/physical_systems/physical_systems.py 205-236) returns the same array in
    every call and overwrites it in the next.  A program that evaluates the equation is a tree of
    evaluations and reads of earlier results; it runs against values or against the shared array. *)
From Verif Require Import PyBase Conv_Model Solver_Model PhysSys_Model.

(** A client of the equation.  [CCall]: evaluate; an exception ends the client.  [CRead i]: look
    into the array that the i-th evaluation (from 0) returned.  Writing into the array is not
    modelled (no client in the repository does). *)
Inductive client (U A : Type) :=
| CRet (a : A)
| CFail (e : exn)
| CCall (u : U) (t : R) (y : list R) (k : client U A)
| CRead (i : nat) (k : list R -> client U A).
Arguments CRet {U A}. Arguments CFail {U A}. Arguments CCall {U A}. Arguments CRead {U A}.

(** The i-th result; IndexError if there were not that many evaluations. *)
Definition result_at (l : list (list R)) (i : nat) : res (list R) := match nth_error l i with Some r => Ok r | None => Err IndexError end.
(** Every evaluation returns an array of its own; [past]: results so far, the last one first. *)
Fixpoint run_values {U A} (f : rhs U) (past : list (list R)) (c : client U A) : res A :=
  match c with
  | CRet a => Ok a
  | CFail e => Err e
  | CCall u t y k => do r <- f u t y; run_values f (r :: past) k
  | CRead i k => do r <- result_at (rev past) i; run_values f past (k r)
  end.
(** All evaluations return the array of the system (236); [n]: evaluations so far. *)
Fixpoint run_shared {U A} (ml : mload) (mo : motor U) (cache : option (list R * nat)) (n : nat) (c : client U A) : res A :=
  match c with
  | CRet a => Ok a
  | CFail e => Err e
  | CCall u t y k => let (cache', r) := system_equation_ph ml mo cache u t y in do _ <- r; run_shared ml mo cache' (S n) k
  | CRead i k => if Nat.ltb i n then match cache with Some (arr, _) => run_shared ml mo cache n (k arr) | None => Err IndexError end else Err IndexError
  end.

(** EulerSolver as a client: [_integrate_one_step] (solvers.py 134-136) and the loop of
    [_integrate_nsteps] (113-122): [f(...) * tau] reads the result at once. *)
Definition add_client {U A} (y d : list R) (k : list R -> client U A) : client U A :=
  match np_add y d with Ok y' => k y' | Err e => CFail e end.
Fixpoint euler_loop {U} (p : U) (h : R) (done m : nat) (ct : R) (y : list R) : client U (list R) :=
  match m with
  | O => CRet y
  | S m' => CCall p (ct + h) y (CRead done (fun d => add_client y (vscale h d) (fun y' => euler_loop p h (S done) m' (ct + h) y')))
  end.
Definition euler_client {U} (n : nat) (p : U) (t0 t : R) (y : list R) : client U (list R) :=
  match n with
  | O => CFail ZeroDivisionError
  | 1%nat => CCall p t0 y (CRead 0 (fun d => add_client y (vscale (t - t0) d) CRet))
  | n => euler_loop p ((t - t0) / INR n) 0 n t y
  end.

(** A client that keeps results as the Runge-Kutta methods of scipy's [solve_ivp] (reached by
    ScipySolveIvpSolver, 207-219) start: the derivative at the initial point is kept (there:
    [self.f = self.fun(t, y)]), a second evaluation half a trial step on estimates the curvature
    (there: [select_initial_step]), and the kept derivative is the first stage.  scipy is not part of
    the repository; it is described here from its documentation and source as far as it matters:
    [np.asarray] of a result does not copy it. *)
Definition rk_start {U} (u : U) (t0 h0 : R) (y0 : list R) : client U (list R * list R) :=
  CCall u t0 y0 (CRead 0 (fun f0 =>
    match np_add y0 (vscale h0 f0) with
    | Err e => CFail e
    | Ok y1 => CCall u (t0 + h0) y1 (CRead 1 (fun f1 => CRead 0 (fun f0' =>
        match np_add f1 (vscale (-1) f0') with Err e => CFail e | Ok dif => CRet (f0', dif) end)))
    end)).
