(** Vocabulary for the mechanical loads. *)
From Verif Require Import PyBase PyDict Solver_Model Init_Model Loads_Model.

(** The dictionary object an operation works on. *)
Definition op_cell (ls : list load) (op : load_op) : option cell :=
  match op with
  | NewConst _ user _ => Some (match user with Some n => UserDict n | None => ConstClass end)
  | NewPoly user _ => None
  | ResetLoad i _ _ _ _ => match nth_error ls i with Some l => Some (ld_cell l) | None => None end
  end.
(** A run in which no operation works on dictionary [c]. *)
Fixpoint avoids (c : cell) (w : world) (ops : list load_op) : Prop :=
  match ops with
  | [] => True
  | op :: ops' => op_cell (snd w) op <> Some c /\ avoids c (fst (load_step w op)) ops'
  end.
(** The last non-zero speed among constructor calls without own dictionary. *)
Fixpoint last_fixed (ops : list load_op) (d : R) : R :=
  match ops with
  | [] => d
  | NewConst w None _ :: ops' => last_fixed ops' (if req w 0 then d else w)
  | _ :: ops' => last_fixed ops' d
  end.
(** Resets that do not draw. *)
Definition no_draw (op : load_op) : Prop :=
  match op with NewConst _ _ o | NewPoly _ o => lo_random o = None | ResetLoad _ _ _ _ _ => True end.

(** Textbook torque of the polynomial load: viscous and air friction plus Coulomb
    friction [a] smoothed to the slope [k] around standstill. *)
Definition friction (a b c k w : R) : R := c * (w * Rabs w) + b * w + Rmax (- a) (Rmin a (k * w)).

(** Building a load and attaching it to drives with rotor inertias [js]. *)
Definition poly_attach (p : poly) (js : list R) : res poly :=
  fold_left (fun r j => do q <- r; poly_set_j_rotor j q) js (Ok p).
Fixpoint rsum (l : list R) : R := match l with [] => 0 | x :: l' => x + rsum l' end.

(** One [integrate] call per control period [tau], each with its own parameters (the
    voltages), as the physical systems do. *)
Fixpoint euler_steps {P} (f : rhs P) (s : euler P) (tau : R) (ps : list P) : res (euler P) :=
  match ps with
  | [] => Ok s
  | p :: ps' => match integrate f (set_f_params p s) (eu_t s + tau) with
                | (s', Ok _) => euler_steps f s' tau ps'
                | (_, Err e) => Err e
                end
  end.
(** A drive whose speed (first state) is governed by an external speed load; the other
    derivatives are arbitrary. *)
Definition ext_drive {P} (l : ext_load) (g : P -> R -> list R -> res (list R)) : rhs P :=
  fun p t y => do w <- ext_ode l t y; do d <- g p t y; Ok (w ++ d).
