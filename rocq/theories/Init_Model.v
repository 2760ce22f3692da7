(** Model of the initialisation of electric motors,
    src/gym_electric_motor/physical_systems/electric_motors/electric_motor.py
    107-144 (constructor part), 179-285 ([initialize], [reset]);
    [reset] of synchronous_motor.py 125-131 and induction_motor.py 178-185;
    flux limits induction_motor.py 250-285, squirrel_cage_induction_motor.py 146-157,
    doubly_fed_induction_motor.py 154-165, three_phase_motor.py 135-139.
    NaN does not occur; user values are floats. *)
From Verif Require Import PyBase PyDict Utils_Model Transform_Model Motor_Model MotorLimit_Model.

Inductive dist := Uniform | Normal | OtherDist.
(** The initializer dictionary, e.g. dc_motor.py 75-80.  [in_states = None] is the
    user's [states=None]. *)
Record initializer := {
  in_states : option (dict R);
  in_interval : option (list (R * R));
  in_random : option dist;
  in_params : option R * option R
}.
(** What the motor and the physical system provide. *)
Record init_env := {
  ie_default : dict R;           (* _default_initializer["states"] *)
  ie_nominal : dict R;           (* _nominal_values *)
  ie_limits : dict R;            (* _initial_limits, used by induction motors only *)
  ie_positions : dict nat;       (* state_positions *)
  ie_low : list R                (* state_space.low *)
}.

(** Constructor, 132-135 *)
Definition initial_states_new (i : initializer) : dict R :=
  match in_states i with Some d => dict_update [] d | None => [] end.

(** [state_positions[state] for state in ...], 217 *)
Fixpoint positions (ks : list string) (d : dict nat) : res (list nat) :=
  match ks with
  | [] => Ok []
  | k :: ks' => do v <- dict_item k d; do vs <- positions ks' d; Ok (v :: vs)
  end.
(** Bounds of motors without rotor flux, 211-220 *)
Definition plain_bounds (e : init_env) (names : list string) : res (list R * list R) :=
  do up <- items names (ie_nominal e);
  do idx <- positions names (ie_positions e);
  do low <- select idx (ie_low e);
  Ok (map2 Rmult up low, up).
(** Bounds of induction motors, 195-210: five states are hard coded (ValueError of
    numpy's broadcasting otherwise). *)
Definition flux_bounds (e : init_env) (names : list string) : res (list R * list R) :=
  do l <- items names (ie_limits e);
  let up := map Rabs l in
  if Nat.eqb (length names) 5 then Ok (map2 Rmult up [-1; -1; -1; -1; -1], up) else Err ValueError.
Definition has_flux (names : list string) : bool := str_in "psi_ralpha"%string names || str_in "psi_rbeta"%string names.
(** Clipping with the user's interval, 222-224.  numpy broadcasts one pair; other
    lengths raise ValueError (a single state with several intervals would be
    broadcast too, which is not modelled). *)
Definition clip_bounds (iv : option (list (R * R))) (b : list R * list R) : res (list R * list R) :=
  match iv with
  | None => Ok b
  | Some l =>
      let l' := match l with [p] => repeat p (length (fst b)) | _ => l end in
      if Nat.eqb (length l') (length (fst b))
      then Ok (map2 (fun x p => Rmax x (fst p)) (fst b) l', map2 (fun x p => Rmin x (snd p)) (snd b) l')
      else Err ValueError
  end.
(** [(lower_bound <= v).all() and (v <= upper_bound).all()], 258 *)
Fixpoint all_le (a b : list R) : bool :=
  match a, b with x :: a', y :: b' => rle x y && all_le a' b' | _, _ => true end.

(** The truncated normal distribution of scipy: a, b, loc (one entry per state), scale,
    seed; may raise (scipy refuses a >= b). *)
Definition truncnorm := list R -> list R -> list R -> R -> nat -> res (list R).
(** 238-240: [x or y] of numbers *)
Definition or_num (o : option R) (alt : R) : R := match o with Some v => if req v 0 then alt else v | None => alt end.
Definition gauss_mue (p : option R) (lo up : list R) : list R :=
  map2 (fun l u => or_num p ((u - l) / 2 + l)) lo up.

(** [initialize], 179-268.  [st] is [_initial_states], [us] what the motor's own
    generator returns for [uniform(size=n)], [pool] the integer
    [seed_sequence.pool[0]]. *)
Definition initialize (i : initializer) (e : init_env) (tn : truncnorm) (pool : nat) (us : nat -> list R) (st : dict R) : res (dict R) :=
  let st1 := dict_update st (ie_default e) in
  let st2 := match in_states i with Some d => dict_update st1 d | None => st1 end in
  let names := dict_keys st2 in
  do b0 <- (if has_flux names then flux_bounds e names else plain_bounds e names);
  do b <- clip_bounds (in_interval i) b0;
  let (lo, up) := b in
  match in_random i with
  | Some Uniform =>
      let v := map2 Rplus (map2 Rmult (map2 Rminus up lo) (us (length names))) lo in
      Ok (dict_update st2 (combine names v))
  | Some Normal =>
      let mue := gauss_mue (fst (in_params i)) lo up in
      let sigma := or_num (snd (in_params i)) 1 in
      do v <- tn (map2 (fun l m => (l - m) / sigma) lo mue) (map2 (fun u m => (u - m) / sigma) up mue) mue sigma pool;
      Ok (dict_update st2 (combine names v))
  | Some OtherDist => Err NotImplementedError
  | None => if all_le lo (dict_values st2) && all_le (dict_values st2) up then Ok st2 else Err PlainException
  end.

(** [reset], 270-285 (synchronous_motor.py 125-131, induction_motor.py 178-185):
    [nzeros] is the number of states; returns the new [_initial_states] and the motor
    state handed to the integrator. *)
Definition motor_reset (i : initializer) (e : init_env) (nzeros : nat) (tn : truncnorm) (pool : nat) (us : nat -> list R) (st : dict R)
  : res (dict R * list R) :=
  match in_states i with
  | Some (_ :: _) => do st' <- initialize i e tn pool us st; Ok (st', dict_values st')
  | _ => Ok (st, repeat 0 nzeros)
  end.

(** ** Flux limits of induction motors *)
(** [_flux_limit], induction_motor.py 250-285.  [u] is [u_q_max + l_mr * u_rq_max]; the
    division by [p * omega * l_mr] is only reached for omega <> 0 (p, l_m <> 0). *)
Definition flux_d_max (m : im_par) (i_nom omega i_d i_q u : R) : R :=
  if req omega 0 then im_lm m * i_nom
  else let l_mr := im_lm m / im_lr m in
       let v := (im_p m * omega * im_sigma m * im_ls m * i_d + (im_rs m + im_rr m * (l_mr * l_mr)) * i_q + u) / (- im_p m * omega * l_mr) in
       9 / 10 * np_clip v 0 (Rabs (im_lm m * i_d)).
Definition flux_limit (m : im_par) (i_nom omega ialpha ibeta eps u : R) : res (list R) :=
  do dq <- q_inv [ialpha; ibeta] eps;
  do d <- item dq 0; do qq <- item dq 1;
  q [flux_d_max m i_nom omega d qq u; 0] eps.
(** squirrel_cage_induction_motor.py 146-157: absolute values. [eps] is drawn from the
    global numpy generator. *)
Definition scim_initial_limits (m : im_par) (nominal : dict R) (i_nom omega ialpha ibeta eps u : R) : res (dict R) :=
  do f <- flux_limit m i_nom omega ialpha ibeta eps u;
  do fa <- item f 0; do fb <- item f 1;
  Ok (dict_set "psi_rbeta"%string (Rabs fb) (dict_set "psi_ralpha"%string (Rabs fa) nominal)).
