(** Vocabulary for motor initialisation. *)
From Verif Require Import PyBase PyDict Init_Model.

(** The order in which a motor hands out its initial values: the user's names in the
    user's order, then the remaining default names. *)
Definition init_order (user default : list string) : list string :=
  user ++ filter (fun k => negb (str_in k user)) default.
(** The value asked for: the user's or the default. *)
Definition asked (user default : dict R) (k : string) : option R :=
  match dict_get k user with Some v => Some v | None => dict_get k default end.
(** Internal dictionaries that occur: fresh, or after resets. *)
Definition init_reachable (user default st : dict R) : Prop :=
  NoDup (dict_keys st) /\ (dict_keys st = dict_keys user \/ dict_keys st = init_order (dict_keys user) (dict_keys default)).
(** The state vector [v] with layout [names] has the asked value at every name. *)
Definition delivered (names : list string) (v : list R) (user default : dict R) : Prop :=
  length v = length names /\ forall j k, nth_error names j = Some k -> nth_error v j = asked user default k.
(** numpy's draws from the half open unit interval. *)
Definition unit_draws (us : nat -> list R) : Prop := forall n, length (us n) = n /\ forall u, In u (us n) -> 0 <= u < 1.
(** The user's interval of state number [j]; a single pair is meant for all states. *)
Definition interval_at (iv : option (list (R * R))) (j : nat) : option (R * R) :=
  match iv with None => None | Some [p] => Some p | Some l => nth_error l j end.
(** [lo], [up] are the bounds of the state named [k], number [j] of the order: its
    nominal box intersected with the user's interval. *)
Definition state_box (e : init_env) (iv : option (list (R * R))) (j : nat) (k : string) (lo up : R) : Prop :=
  exists nom p l, dict_get k (ie_nominal e) = Some nom /\ dict_get k (ie_positions e) = Some p /\ nth_error (ie_low e) p = Some l /\
  match interval_at iv j with
  | None => lo = nom * l /\ up = nom
  | Some (a, b) => lo = Rmax (nom * l) a /\ up = Rmin nom b
  end.
(** The motor and the system know all these states, and the interval fits. *)
Definition init_known (e : init_env) (iv : option (list (R * R))) (names : list string) : Prop :=
  (forall k, In k names -> exists nom p l, dict_get k (ie_nominal e) = Some nom /\ dict_get k (ie_positions e) = Some p /\ nth_error (ie_low e) p = Some l) /\
  match iv with None => True | Some l => length l = 1%nat \/ length l = length names end.
(** Running resets one after the other, each with its own draws. *)
Fixpoint motor_resets (i : initializer) (e : init_env) (n : nat) (tn : truncnorm) (pool : nat) (uss : list (nat -> list R)) (st : dict R)
  : res (dict R * list (list R)) :=
  match uss with
  | [] => Ok (st, [])
  | us :: uss' => do r <- motor_reset i e n tn pool us st; do r' <- motor_resets i e n tn pool uss' (fst r); Ok (fst r', snd r :: snd r')
  end.
