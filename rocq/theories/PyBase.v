(** Common vocabulary of the model: Python exceptions as values, boolean
    comparisons on reals (Python [float] is modelled by [R]; rounding and NaN
    are not modelled), numpy [clip], and small list helpers. *)
From Coq Require Export Reals List Bool Arith ZArith Lia Lra.
From Coq Require String.
Export String.StringSyntax.
Notation string := String.string.
Delimit Scope string_scope with string.
Export ListNotations.
Open Scope list_scope.
Open Scope R_scope.

(** Python exception classes that occur in the modelled code. *)
Inductive exn :=
| AssertionError | KeyError | IndexError | TypeError | ValueError
| AttributeError | ZeroDivisionError | NotImplementedError
| PlainException.                    (* [raise Exception(...)] *)

Definition exn_eq_dec (a b : exn) : {a = b} + {a <> b}.
Proof. decide equality. Defined.

(** Result of a Python call: a value or a raised exception. *)
Inductive res (A : Type) :=
| Ok (a : A)
| Err (e : exn).
Arguments Ok {A} a.
Arguments Err {A} e.

Definition bind {A B} (x : res A) (f : A -> res B) : res B :=
  match x with Ok a => f a | Err e => Err e end.

Notation "'do' x <- e1 ; e2" := (bind e1 (fun x => e2))
  (at level 200, x name, e1 at level 100, e2 at level 200).

(** Python's [assert b]. *)
Definition py_assert (b : bool) : res unit :=
  if b then Ok tt else Err AssertionError.

(** Boolean comparisons of floats. *)
Definition rlt (x y : R) : bool := if Rlt_dec x y then true else false.
Definition rle (x y : R) : bool := if Rle_dec x y then true else false.
Definition req (x y : R) : bool := if Req_EM_T x y then true else false.

(** [numpy.clip(x, lo, hi)] = [minimum(maximum(x, lo), hi)]. *)
Definition np_clip (x lo hi : R) : R := Rmin (Rmax x lo) hi.

(** [numpy.sign] *)
Definition np_sign (x : R) : R :=
  if rlt x 0 then -1 else if rlt 0 x then 1 else 0.

(** Sum of a list of reals ([sum], [numpy.sum]). *)
Fixpoint rsum (l : list R) : R :=
  match l with [] => 0 | x :: l' => x + rsum l' end.

(** Pointwise combination of two lists ([zip] semantics: stops at the shorter). *)
Fixpoint map2 {A B C} (f : A -> B -> C) (l : list A) (m : list B) : list C :=
  match l, m with
  | a :: l', b :: m' => f a b :: map2 f l' m'
  | _, _ => []
  end.

(** Indexing with a list of positions ([state[indices]]): [IndexError] if one
    of them is out of range. *)
Fixpoint select {A} (idx : list nat) (l : list A) : res (list A) :=
  match idx with
  | [] => Ok []
  | i :: idx' =>
      match nth_error l i with
      | Some a => do r <- select idx' l; Ok (a :: r)
      | None => Err IndexError
      end
  end.

(** [list.index(name)]: position of the first occurrence, else [ValueError]. *)
Fixpoint str_index (s : string) (l : list string) : res nat :=
  match l with
  | [] => Err ValueError
  | x :: l' => if String.eqb x s then Ok O
               else do i <- str_index s l'; Ok (S i)
  end.

(** [l[i] = v] on a list that has position [i]. *)
Fixpoint list_set {A} (i : nat) (v : A) (l : list A) : list A :=
  match i, l with
  | _, [] => []
  | O, _ :: l' => v :: l'
  | S i', x :: l' => x :: list_set i' v l'
  end.
