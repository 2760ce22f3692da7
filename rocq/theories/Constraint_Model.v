(** Model of src/gym_electric_motor/constraints.py and of ConstraintMonitor
    (core.py 743-844). *)
From Verif Require Import PyDict Utils_Model.

(** What a constraint reads from the physical system. *)
Record ps_info := {
  pi_names : list string;      (* state_names *)
  pi_limits : list R;          (* limits *)
  pi_high : list R             (* state_space.high *)
}.

(** ** LimitConstraint, constraints.py 32-68 *)

(** The constructor argument [observed_state_names]. *)
Inductive observed :=
| ObsAllStr                     (* the default string 'all_states' *)
| ObsList (l : list string)     (* an iterable of names *)
| ObsNone.

(** The attribute after construction / set_modules. *)
Record limit_constraint := {
  lc_names : observed;
  lc_mask : option (list bool)      (* _observed_states *)
}.
Definition lc_new (o : observed) : limit_constraint := {| lc_names := o; lc_mask := None |}.

(** Resolution of the names, constraints.py 62-65.  [x in None] is a TypeError,
    so the test in line 64 can never succeed. *)
Definition lc_resolve (o : observed) (ps : ps_info) : res (list string) :=
  match o with
  | ObsAllStr => Ok (pi_names ps)
  | ObsList l => if str_in "all_states"%string l then Ok (pi_names ps) else Ok l
  | ObsNone => Err TypeError
  end.

(** [set_modules], 60-68: the attribute [_observed_state_names] is overwritten
    by the resolved names. *)
Definition lc_set_modules (c : limit_constraint) (ps : ps_info) : res limit_constraint :=
  do ns <- lc_resolve (lc_names c) ps;
  do arr <- set_state_array (InDict (dict_fromkeys ns 1)) (pi_names ps);
  Ok {| lc_names := ObsList ns; lc_mask := Some (map (fun x => negb (req x 0)) arr) |}.

(** [state[mask]] with a boolean mask: IndexError if the lengths differ. *)
Fixpoint mask_select (m : list bool) (l : list R) : res (list R) :=
  match m, l with
  | [], [] => Ok []
  | b :: m', x :: l' => do r <- mask_select m' l'; Ok (if b then x :: r else r)
  | _, _ => Err IndexError
  end.

(** [__call__], 55-58.  Before set_modules the mask is None and
    [state[None]] is a 2-d array whose row comparison has no truth value
    (ValueError; for a one-element state it would be evaluated, which is left
    out). *)
Definition lc_call (c : limit_constraint) (state : list R) : res R :=
  match lc_mask c with
  | None => Err ValueError
  | Some m => do obs <- mask_select m state;
              Ok (if existsb (fun x => rlt 1 (Rabs x)) obs then 1 else 0)
  end.

(** ** SquaredConstraint, constraints.py 71-98 *)
Record squared_constraint := {
  sc_states : list string;
  sc_indices : list nat;
  sc_limits : list R;
  sc_normalized : bool
}.
Definition sc_new (states : list string) : squared_constraint :=
  {| sc_states := states; sc_indices := []; sc_limits := []; sc_normalized := false |}.

(** [ps.state_positions[state]]: KeyError if absent.  [state_positions] is the
    dictionary name -> index built from [state_names] (core.py 674,
    [{key: index for index, key in enumerate(names)}]: the last index wins for
    repeated names; names are distinct in all theorems). *)
Fixpoint sc_positions (states names : list string) : res (list nat) :=
  match states with
  | [] => Ok []
  | s :: states' =>
      match str_index s names with
      | Ok i => do r <- sc_positions states' names; Ok (i :: r)
      | Err _ => Err KeyError
      end
  end.

Fixpoint all_equal (a b : list R) : bool :=
  match a, b with
  | x :: a', y :: b' => req x y && all_equal a' b'
  | _, _ => true
  end.

(** [set_modules], 91-94. *)
Definition sc_set_modules (c : squared_constraint) (ps : ps_info) : res squared_constraint :=
  do idx <- sc_positions (sc_states c) (pi_names ps);
  do lim <- select idx (pi_limits ps);
  do high <- select idx (pi_high ps);
  Ok {| sc_states := sc_states c; sc_indices := idx; sc_limits := lim;
        sc_normalized := negb (all_equal high lim) |}.

(** [__call__], 96-98 (division by a zero limit is not modelled: limits are
    non-zero in all theorems). *)
Definition sc_call (c : squared_constraint) (state : list R) : res R :=
  do st <- select (sc_indices c) state;
  let st' := if sc_normalized c then st else map2 Rdiv st (sc_limits c) in
  Ok (if rlt 1 (rsum (map (fun x => x * x) st')) then 1 else 0).

(** ** ConstraintMonitor, core.py 743-844 *)

(** A value passed to a merge function: a number or a list of numbers. *)
Inductive pyval := VNum (x : R) | VList (l : list R).

(** A constraint is any callable on states. *)
Definition constraint := list R -> res R.

(** The argument [merge_violations]. *)
Inductive merge_arg :=
| MergeMax | MergeProduct
| MergeCallable (f : list pyval -> res R)   (* receives its positional arguments *)
| MergeOther.                               (* anything else: assertion *)

Record monitor := {
  cm_constraints : list constraint;
  cm_merge : list pyval -> res R           (* receives its positional arguments *)
}.

(** Python's [max] called with one argument, a list. *)
Fixpoint py_max_from (m : R) (l : list R) : R :=
  match l with [] => m | x :: l' => py_max_from (if rlt m x then x else m) l' end.
Definition py_max (args : list pyval) : res R :=
  match args with
  | [VList (x :: l)] => Ok (py_max_from x l)
  | [VList []] => Err ValueError
  | _ => Err TypeError                      (* not reached by the code *)
  end.

(** [1 - violation]: TypeError for a list. *)
Definition one_minus (v : pyval) : res R :=
  match v with VNum x => Ok (1 - x) | VList _ => Err TypeError end.
Fixpoint prod_one_minus (args : list pyval) : res R :=
  match args with
  | [] => Ok 1
  | v :: args' => do x <- one_minus v; do r <- prod_one_minus args'; Ok (x * r)
  end.
(** [product_merge], core.py 817-818. *)
Definition product_merge (args : list pyval) : res R :=
  do p <- prod_one_minus args; Ok (1 - p).

(** Constructor, core.py 803-822, with the limit constraint already built. *)
Definition cm_new (constraints : list constraint) (m : merge_arg) : res monitor :=
  do _ <- py_assert (match m with MergeOther => false | _ => true end);
  Ok {| cm_constraints := constraints;
        cm_merge := match constraints with
                    | [] => fun _ => Ok 0
                    | _ :: _ => match m with
                                | MergeMax => py_max
                                | MergeProduct => product_merge
                                | MergeCallable f => f
                                | MergeOther => fun _ => Err AttributeError
                                end
                    end |}.

Fixpoint eval_all (cs : list constraint) (state : list R) : res (list R) :=
  match cs with
  | [] => Ok []
  | c :: cs' => do v <- c state; do r <- eval_all cs' state; Ok (v :: r)
  end.

(** [check_constraints], core.py 834-844: the list is passed as *one*
    argument. *)
Definition check_constraints (m : monitor) (state : list R) : res R :=
  do vs <- eval_all (cm_constraints m) state;
  cm_merge m [VList vs].

(** The [constraints] argument of the environment, core.py 257-262: strings go
    to a limit constraint, Constraint instances are kept, everything else is
    dropped.  The limit constraint is appended last (core.py 804-805). *)
Inductive env_constraint :=
| ECName (s : string)
| ECConstraint (c : constraint)      (* instance of Constraint, announced *)
| ECCallable (c : constraint).       (* plain function *)

Definition ec_names (l : list env_constraint) : list string :=
  flat_map (fun e => match e with ECName s => [s] | _ => [] end) l.
Definition ec_constraints (l : list env_constraint) : list constraint :=
  flat_map (fun e => match e with ECConstraint c => [c] | _ => [] end) l.

(** The monitor an environment builds and announces to the physical system. *)
Definition env_monitor (l : list env_constraint) (ps : ps_info) : res monitor :=
  match ec_names l with
  | [] => cm_new (ec_constraints l) MergeMax
  | ns => do lc <- lc_set_modules (lc_new (ObsList ns)) ps;
          cm_new (ec_constraints l ++ [lc_call lc]) MergeMax
  end.
