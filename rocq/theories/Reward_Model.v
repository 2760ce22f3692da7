(** Model of src/gym_electric_motor/reward_functions/weighted_sum_of_errors.py. *)
From Verif Require Import PyDict Utils_Model.

(** [x ** n] for a non-negative base: 0**0 = 1, 0**n = 0 for n > 0 (a negative
    power of 0 is inf in numpy and not modelled). *)
Definition np_pow (x n : R) : R :=
  if req x 0 then (if req n 0 then 1 else 0) else Rpower x n.

(** The constructor argument [bias]. *)
Inductive bias_arg := BiasPositive | BiasNum (b : R).

(** Instance attributes, weighted_sum_of_errors.py 79-86 and core.py
    (RewardFunction). *)
Record wse := {
  wse_n : input;                      (* _n *)
  wse_weights : option input;         (* _reward_weights *)
  wse_length : list R;                (* _state_length *)
  wse_normed : bool;
  wse_gamma : R;
  wse_bias : bias_arg;
  wse_violation : option R;           (* _violation_reward *)
  wse_range : R * R                   (* reward_range *)
}.
(** Constructor, 48-86. *)
Definition wse_new (weights : option input) (normed : bool) (violation : option R)
  (gamma : R) (power : input) (bias : bias_arg) : wse :=
  {| wse_n := power; wse_weights := weights; wse_length := []; wse_normed := normed;
     wse_gamma := gamma; wse_bias := bias; wse_violation := violation;
     wse_range := (0, 0) |}.

(** What [set_modules] reads: names and bounds of the state space and the mask
    of referenced states. *)
Record wse_env := {
  we_names : list string;
  we_low : list R;
  we_high : list R;
  we_referenced : list bool
}.

(** [np.array(names)[mask]] (the mask has the length of the names). *)
Fixpoint mask_names (m : list bool) (l : list string) : list string :=
  match m, l with
  | b :: m', x :: l' => if b then x :: mask_names m' l' else mask_names m' l'
  | _, _ => []
  end.

(** Default weights, 94-106. *)
Definition default_weights (e : wse_env) : dict R :=
  let ref := mask_names (we_referenced e) (we_names e) in
  if existsb (fun b => b) (we_referenced e)
  then dict_fromkeys ref (1 / INR (length ref))
  else dict_fromkeys (we_names e) (1 / INR (length (we_names e))).

(** Python's [min(x, 0)]. *)
Definition py_min0 (x : R) : R := if rlt 0 x then 0 else x.

(** Default violation reward, 122-123.  For gamma = 1 the normed branch divides
    two Python floats (ZeroDivisionError).  In the other branch the numerator is
    a numpy number: Python continues with -inf or nan, which is not modelled;
    the model raises there as well and all theorems assume gamma < 1. *)
Definition default_violation (range0 gamma : R) : res R :=
  if req (1 - gamma) 0 then Err ZeroDivisionError
  else Ok (py_min0 (range0 / (1 - gamma))).

(** [set_modules], 88-123.  Attributes are overwritten: the power and the
    weights by arrays, 'positive' by a number, a missing violation reward by a
    number.  (With normed weights of sum 0 numpy continues with nan/inf, which is
    not modelled.) *)
Definition wse_set_modules (f : wse) (e : wse_env) : res wse :=
  let len := map2 Rminus (we_high e) (we_low e) in                     (* 91 *)
  do n <- set_state_array (wse_n f) (we_names e);                      (* 92 *)
  do w <- set_state_array (match wse_weights f with
                           | None => InDict (default_weights e)
                           | Some i => i end) (we_names e);            (* 94-109 *)
  let rw_sum := rsum w in                                              (* 112 *)
  let b := match wse_bias f with
           | BiasPositive => if wse_normed f then 1 else rw_sum
           | BiasNum b => b end in                                     (* 114,119 *)
  let w' := if wse_normed f then map (fun x => x / rw_sum) w else w in (* 116 *)
  let range := if wse_normed f then (-1 + b, b) else (- rw_sum + b, b) in
  do v <- match wse_violation f with
          | Some v => Ok v
          | None => default_violation (fst range) (wse_gamma f) end;   (* 122-123 *)
  Ok {| wse_n := InArray n; wse_weights := Some (InArray w'); wse_length := len;
        wse_normed := wse_normed f; wse_gamma := wse_gamma f; wse_bias := BiasNum b;
        wse_violation := Some v; wse_range := range |}.

(** [_wse_reward], 128-129: elementwise, all arrays of the same length (numpy
    raises ValueError otherwise). *)
Fixpoint weighted_errors (w n len state ref : list R) : res R :=
  match w, n, len, state, ref with
  | [], [], [], [], [] => Ok 0
  | w0 :: w', n0 :: n', l0 :: len', s0 :: state', r0 :: ref' =>
      do rest <- weighted_errors w' n' len' state' ref';
      Ok (w0 * np_pow (Rabs (s0 - r0) / l0) n0 + rest)
  | _, _, _, _, _ => Err ValueError
  end.

(** [reward], 125-126, after set_modules (before it, the attributes are not
    arrays and numpy raises TypeError). *)
Definition wse_reward (f : wse) (state ref : list R) (degree : R) : res R :=
  match wse_n f, wse_weights f, wse_bias f, wse_violation f with
  | InArray n, Some (InArray w), BiasNum b, Some v =>
      do s <- weighted_errors w n (wse_length f) state ref;
      Ok ((1 - degree) * (- s + b) + degree * v)
  | _, _, _, _ => Err TypeError
  end.
