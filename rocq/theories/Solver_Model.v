(** Model of the own solver of the project,
    src/gym_electric_motor/physical_systems/solvers.py 4-136 (OdeSolver, EulerSolver).
    The three scipy wrappers (139-249) are in [Scipy_Model]. *)
From Verif Require Import PyBase.

(** numpy arithmetic on 1-d arrays.  Adding arrays of different lengths raises
    ValueError (numpy's broadcasting of arrays of length 1 is not modelled). *)
Definition vscale (k : R) (x : list R) : list R := map (fun a => a * k) x.
Definition np_add (x y : list R) : res (list R) :=
  if Nat.eqb (length x) (length y) then Ok (map2 Rplus x y) else Err ValueError.

Section Euler.
Context {P : Type}.          (* the additional arguments [*f_params] *)
(** [_system_equation(t, y, *f_params)]; it may raise. *)
Definition rhs := P -> R -> list R -> res (list R).

(** Attributes of an EulerSolver, 9-18 and 96: [_y] and [_f_params] are None until
    set. *)
Record euler := { eu_n : nat; eu_t : R; eu_y : option (list R); eu_p : option P }.
(** 90-97 *)
Definition euler_new (n : nat) : euler := {| eu_n := n; eu_t := 0; eu_y := None; eu_p := None |}.
(** [set_initial_value], 36-45 *)
Definition set_initial_value (y : list R) (t : R) (s : euler) : euler :=
  {| eu_n := eu_n s; eu_t := t; eu_y := Some y; eu_p := eu_p s |}.
(** [set_f_params], 69-76 *)
Definition set_f_params (p : P) (s : euler) : euler :=
  {| eu_n := eu_n s; eu_t := eu_t s; eu_y := eu_y s; eu_p := Some p |}.

(** The loop of [_integrate_nsteps], 116-119: [k] remaining cycles. *)
Fixpoint nsteps_loop (f : R -> list R -> res (list R)) (h : R) (k : nat) (ct : R) (y : list R) : res (list R) :=
  match k with
  | O => Ok y
  | S k' => do d <- f (ct + h) y; do y' <- np_add y (vscale h d); nsteps_loop f h k' (ct + h) y'
  end.
(** [integrate], 97 and 99-136: [_integrate_one_step] for nsteps = 1 (134-136),
    else [_integrate_nsteps] (113-122).  [nsteps = 0] divides by zero.  A missing
    initial value (None) makes the system equations raise TypeError, as do missing
    parameters ([*None]).  Attributes are written at the end, so a raising system
    equation leaves them unchanged. *)
Definition integrate (f : rhs) (s : euler) (t : R) : euler * res (list R) :=
  match eu_p s, eu_y s with
  | Some p, Some y =>
      let r :=
        match eu_n s with
        | O => Err ZeroDivisionError
        | 1%nat => do d <- f p (eu_t s) y; np_add y (vscale (t - eu_t s) d)
        | n => nsteps_loop (f p) ((t - eu_t s) / INR n) n t y
        end in
      match r with
      | Ok y' => ({| eu_n := eu_n s; eu_t := t; eu_y := Some y'; eu_p := eu_p s |}, Ok y')
      | Err e => (s, Err e)
      end
  | _, _ => (s, Err (match eu_n s with O => ZeroDivisionError | _ => TypeError end))
  end.
End Euler.
Arguments rhs P : clear implicits.
Arguments euler P : clear implicits.
