(** Vocabulary for the properties of the example controllers (Ex_Props.v). *)
From Verif Require Import PyBase PyDict Transform_Model PhysSys_Model Motor_Model Ex_Model Ex_Model2.
Local Open Scope string_scope.
Local Open Scope list_scope.
Local Open Scope R_scope.

(** One call of [control] with a state and a reference, or [reset] *)
Inductive ev (A : Type) := Control (state reference : A) | ResetIt.
Arguments Control {A} state reference.
Arguments ResetIt {A}.

(** A history of an on-off / three-point controller: the controller afterwards *)
Fixpoint oo_run (c : on_off) (h : list (ev R)) : on_off :=
  match h with
  | [] => c
  | Control s r :: h' => oo_run (fst (oo_control c s r)) h'
  | ResetIt :: h' => oo_run (oo_reset c) h'
  end.
Fixpoint tp_run (c : three) (h : list (ev R)) : three :=
  match h with
  | [] => c
  | Control s r :: h' => tp_run (fst (tp_control c s r)) h'
  | ResetIt :: h' => tp_run (tp_reset c) h'
  end.
(** The error of a [control] call *)
Definition err (x : R * R) : R := snd x - fst x.
Definition controls {A} (l : list (A * A)) : list (ev A) := map (fun p => Control (fst p) (snd p)) l.

(** In the sequence of errors (oldest first) the last time the error was above [hi] it has
    stayed above [lo] ever since: the sequence ends with an error above [hi] followed by
    errors above [lo]. *)
Definition above_since (hi lo : R) (l : list R) : Prop := exists pre e post, l = pre ++ e :: post /\ hi < e /\ Forall (fun x => lo < x) post.
Definition below_since (hi lo : R) (l : list R) : Prop := above_since hi lo (map Ropp l).

(** A history of a continuous action controller: the controller afterwards and the returned
    actions, if nothing raised *)
Fixpoint ca_run (c : cac) (h : list (ev (list R))) : res (cac * list (list R)) :=
  match h with
  | [] => Ok (c, [])
  | Control s r :: h' => do x <- ca_control c s r; do y <- ca_run (fst x) h'; Ok (fst y, snd x :: snd y)
  | ResetIt :: h' => ca_run (ca_reset c) h'
  end.
Fixpoint dead_run (c : cac) (d : list slot) (h : list (list R * list R)) : res (cac * list slot * list (list R)) :=
  match h with
  | [] => Ok (c, d, [])
  | (s, r) :: h' => do x <- dead_cycle c d s r; do y <- dead_run (fst (fst x)) (snd (fst x)) h'; Ok (fst y, snd x :: snd y)
  end.
(** The integrator of a PI or PID controller and its gains *)
Definition pi_of (b : base) : option pi := match b with BPi c => Some c | BPid c => Some (pid_pi c) | _ => None end.
Definition between (lo hi x : R) : Prop := lo <= x <= hi.

(** The voltage that the rotation of a motor with armature flux [psi] induces *)
Definition emf (psi omega : R) : R := omega * psi.

Fixpoint cc_run (c : cas) (h : list (ev (list R))) : res (cas * list (list R)) :=
  match h with
  | [] => Ok (c, [])
  | Control s r :: h' => do x <- cc_control c s r; do y <- cc_run (fst x) h'; Ok (fst y, snd x :: snd y)
  | ResetIt :: h' => cc_run (cc_reset c) h'
  end.
Fixpoint da_run (c : dac) (h : list (ev (list R))) : res (dac * list (list R)) :=
  match h with
  | [] => Ok (c, [])
  | Control s r :: h' => do x <- da_control c s r; do y <- da_run (fst x) h'; Ok (fst y, snd x :: snd y)
  | ResetIt :: h' => do c' <- da_reset c; da_run c' h'
  end.
(** A number is a valid action of [Discrete(n)]. *)
Definition valid_action (n : Z) (a : R) : Prop := exists k, a = IZR k /\ (0 <= k < n)%Z.

(** The normalised state shows the physical quantity [name] with value [v]. *)
Definition shows (e : env) (state : list R) (name : string) (v : R) : Prop :=
  exists j l, str_index name (en_names e) = Ok j /\ item (en_limits e) j = Ok l /\ l <> 0 /\ item state j = Ok (v / l).
(** A permanently excited DC motor in its environment: the motor parameters are those in the
    dictionary, there is one current and one voltage, and the nominal values of speed and
    voltage are the same multiples of their limits. *)
Definition perm_env (e : env) (m : perm_par) (li lu : R) : Prop :=
  en_extex e = false /\ dict_get "psi_e" (en_mp e) = Some (pe_psi m) /\ dict_get "l_a" (en_mp e) = Some (pe_la m) /\ pe_psi m <> 0 /\
  exists ji ju jw lw nw nu, en_cur e = [ji] /\ en_volt e = [ju] /\ str_index "i" (en_names e) = Ok ji /\ str_index "omega" (en_names e) = Ok jw /\
    item (en_limits e) ji = Ok li /\ item (en_limits e) ju = Ok lu /\ item (en_limits e) jw = Ok lw /\
    item (en_nominal e) jw = Ok nw /\ item (en_nominal e) ju = Ok nu /\ li <> 0 /\ lu <> 0 /\ lw <> 0 /\ nu <> 0 /\ nw * lu = lw * nu.
(** The closed current loop: the controller sees the current and the speed, the action never
    reaches its limits, and the current follows the electrical equation with one Euler step
    per control cycle.  The speed may be anything. *)
Definition perm_loop (e : env) (m : perm_par) (lu ref : R) (c : cac) (cs : nat -> cac) (st : nat -> list R) (i w a : nat -> R) : Prop :=
  cs O = c /\
  forall k, ca_control (cs k) (st k) [ref] = Ok (cs (S k), [a k]) /\ ca_low c < a k < ca_high c /\
    shows e (st k) "i" (i k) /\ shows e (st k) "omega" (w k) /\
    exists d, perm_ode m [i k] [a k * lu] (w k) = Ok [d] /\ i (S k) = i k + en_tau e * d.

(** A history of the discrete field oriented controller: the numbers it returned *)
Fixpoint fd_run (f : foc_par) (iabc : list nat) (cs : list base) (h : list (list R * R * R)) : res (list R) :=
  match h with
  | [] => Ok []
  | (s, rd, rq) :: h' => do x <- foc_disc f iabc cs s rd rq; do l <- fd_run f iabc (fst x) h'; Ok (snd x :: l)
  end.
(** The flux oriented frame of an induction motor with currents [isd], [isq] and flux [psi] at
    angle [theta]: state and stator voltages in stator coordinates *)
Definition im_state (theta isd isq psi : R) : list R :=
  [cos theta * isd - sin theta * isq; sin theta * isd + cos theta * isq; psi * cos theta; psi * sin theta; 0].
Definition im_voltage (theta usd usq : R) : list R := [cos theta * usd - sin theta * usq; sin theta * usd + cos theta * usq].
(** The speed of the flux and the derivatives of the two current components in its frame,
    from the derivative of the state *)
Definition im_axes (theta isd isq psi : R) (d : list R) : option (R * R * R) :=
  match d with
  | [dia; dib; dpa; dpb; _] =>
      let thetadot := (psi * cos theta * dpb - psi * sin theta * dpa) / (psi * psi) in
      Some (thetadot, cos theta * dia + sin theta * dib + thetadot * isq, - sin theta * dia + cos theta * dib - thetadot * isd)
  | _ => None
  end.
