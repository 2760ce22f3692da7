(** Specification of the constraints. *)
From Verif Require Import PyDict.

(** The state [name] is observed by a limit constraint over the names [l]: the
    list contains the shortcut, or the name itself up to letter case. *)
Definition observes (l : list string) (name : string) : Prop :=
  In "all_states"%string l \/ exists n, In n l /\ lower n = name.

(** [vals] are the entries of [v] that belong to the states [ss], in order. *)
Definition picks (names : list string) (v : list R) (ss : list string) (vals : list R) : Prop :=
  length vals = length ss /\
  forall k s x, nth_error ss k = Some s -> nth_error vals k = Some x ->
    exists i, nth_error names i = Some s /\ nth_error v i = Some x.

Definition sum_of_squares (l : list R) : R := fold_right (fun x acc => x ^ 2 + acc) 0 l.
