(** The explicit Euler method, stated on its own. *)
From Verif Require Import PyBase Solver_Model.

(** One explicit Euler step of an autonomous system. *)
Definition euler_step (g : list R -> list R) (h : R) (y : list R) : list R :=
  map2 (fun a b => a + h * b) y (g y).
Fixpoint iterate {A} (n : nat) (F : A -> A) (x : A) : A :=
  match n with O => x | S n' => iterate n' F (F x) end.
(** [n] textbook Euler steps of length [h] for a scalar, time-dependent right hand
    side, from time [s]: the right hand side is taken at the start of each step. *)
Fixpoint euler_scalar (g : R -> R -> R) (h : R) (n : nat) (s y : R) : R :=
  match n with O => y | S n' => euler_scalar g h n' (s + h) (y + h * g s y) end.
(** Calls of [integrate] to successive times. *)
Fixpoint integrate_all {P} (f : rhs P) (s : euler P) (ts : list R) : euler P :=
  match ts with [] => s | t :: ts' => integrate_all f (fst (integrate f s t)) ts' end.
