(** Model of the coordinate transformations of three phase motors,
    src/gym_electric_motor/physical_systems/electric_motors/three_phase_motor.py 8-118. *)
From Verif Require Import PyBase.

(** [numpy.matmul] of a 2-d array with a 1-d array: ValueError if the inner
    dimensions differ. *)
Fixpoint dot (x y : list R) : R :=
  match x, y with a :: x', b :: y' => a * b + dot x' y' | _, _ => 0 end.
Definition matvec (M : list (list R)) (v : list R) : res (list R) :=
  if forallb (fun row => Nat.eqb (length row) (length v)) M then Ok (map (fun row => dot row v) M) else Err ValueError.
(** [quantities[i]] of a sequence of floats. *)
Definition item (l : list R) (i : nat) : res R :=
  match nth_error l i with Some a => Ok a | None => Err IndexError end.

(** [_t23], 18-21 *)
Definition t23_matrix : list (list R) :=
  [[2 / 3 * 1; 2 / 3 * (- (1 / 2)); 2 / 3 * (- (1 / 2))];
   [2 / 3 * 0; 2 / 3 * (1 / 2 * sqrt 3); 2 / 3 * (- (1 / 2) * sqrt 3)]].
(** [_t32], 24-28 *)
Definition t32_matrix : list (list R) :=
  [[1; 0]; [- (1 / 2); 1 / 2 * sqrt 3]; [- (1 / 2); - (1 / 2) * sqrt 3]].
(** [t_23], 31-42 *)
Definition t_23 (abc : list R) : res (list R) := matvec t23_matrix abc.
(** [t_32], 44-55 *)
Definition t_32 (ab : list R) : res (list R) := matvec t32_matrix ab.
(** [q], 57-71; returns a tuple of two floats *)
Definition q (dq : list R) (eps : R) : res (list R) :=
  do x <- item dq 0; do y <- item dq 1;
  Ok [cos eps * x - sin eps * y; sin eps * x + cos eps * y].
(** [q_inv], 73-88 *)
Definition q_inv (ab : list R) (eps : R) : res (list R) := q ab (- eps).
(** [q_me], 90-101, and [q_inv_me], 103-118; [p] is the pole pair number *)
Definition q_me (p : R) (dq : list R) (eps : R) : res (list R) := q dq (eps * p).
Definition q_inv_me (p : R) (ab : list R) (eps : R) : res (list R) := q_me p ab (- eps).

(** The transformations of the physical systems,
    physical_systems.py ThreePhaseMotorSystem 326-415: [normed] angles are
    multiples of pi. *)
Definition el_angle (eps : R) (normed : bool) : R := if normed then eps * PI else eps.
Definition abc_to_alphabeta (abc : list R) : res (list R) := t_23 abc.
Definition alphabeta_to_abc (ab : list R) : res (list R) := t_32 ab.
Definition abc_to_dq (abc : list R) (eps : R) (normed : bool) : res (list R) :=
  do ab <- t_23 abc; q_inv ab (el_angle eps normed).
Definition dq_to_abc (dq : list R) (eps : R) (normed : bool) : res (list R) :=
  do ab <- q dq (el_angle eps normed); t_32 ab.
Definition alphabeta_to_dq (ab : list R) (eps : R) (normed : bool) : res (list R) := q_inv ab (el_angle eps normed).
Definition dq_to_alphabeta (dq : list R) (eps : R) (normed : bool) : res (list R) := q dq (el_angle eps normed).
