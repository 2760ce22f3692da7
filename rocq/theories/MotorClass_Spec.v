(** What is expected of the name lists: how often a doubly fed motor was constructed, and
    the lists that follow from it, written without the heap. *)
From Verif Require Import PyBase PyDict Motor_Model MotorLimit_Model MotorClass_Model.
Local Open Scope string_scope.
Local Open Scope list_scope.
Definition is_dfim (o : op) : bool := match o with NewDfim _ _ _ => true | _ => false end.
Definition dfims (l : list op) : nat := length (filter is_dfim l).
(** [l] repeated n times *)
Fixpoint times {A} (n : nat) (l : list A) : list A := match n with O => [] | S n' => l ++ times n' l end.
(** names of the rotor quantities *)
Definition rotor_name (k : string) : Prop :=
  In k ["u_ra"; "u_rb"; "u_rc"; "u_rd"; "u_rq"; "i_ra"; "i_rb"; "i_rc"; "i_rd"; "i_rq"].
