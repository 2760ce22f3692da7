(** Model of the example controllers in examples/classic_controllers (file names below
    are relative to that directory).

    Simplifications: floats are reals; a division by zero (inf or nan in numpy) is not
    modelled, theorems that need it ask for non-zero denominators; the object left behind
    by a call that raises is not modelled; the external plots are left out (they only
    receive values); [environment.physical_system] is the physical system itself, without
    wrappers, and the state filter keeps all states. *)
From Verif Require Import PyBase PyDict Transform_Model PhysSys_Model.
Local Open Scope string_scope.
Local Open Scope list_scope.
Local Open Scope R_scope.

(** ** Base controllers *)
(** PIController, controllers/pi_controller.py 11-17 with continuous_controller.py 18-26:
    [p_gain], [i_gain], [tau] and [integrated] *)
Record pi := { pi_p : R; pi_i : R; pi_tau : R; pi_int : R }.
(** [control], pi_controller.py 19-20 *)
Definition pi_control (c : pi) (state reference : R) : R :=
  pi_p c * (reference - state) + pi_i c * (pi_int c + (reference - state) * pi_tau c).
(** [integrate], continuous_controller.py 28-29 *)
Definition pi_integrate (c : pi) (state reference : R) : pi :=
  {| pi_p := pi_p c; pi_i := pi_i c; pi_tau := pi_tau c; pi_int := pi_int c + (reference - state) * pi_tau c |}.
(** [reset], pi_controller.py 22-23 *)
Definition pi_reset (c : pi) : pi := {| pi_p := pi_p c; pi_i := pi_i c; pi_tau := pi_tau c; pi_int := 0 |}.

(** PIDController, controllers/pid_controller.py: a PI controller, [d_gain] and [e_old] *)
Record pid := { pid_pi : pi; pid_d : R; pid_e : R }.
(** [control], 24-30 *)
Definition pid_control (c : pid) (state reference : R) : pid * R :=
  ({| pid_pi := pid_pi c; pid_d := pid_d c; pid_e := reference - state |},
   pi_control (pid_pi c) state reference + pid_d c * (reference - state - pid_e c) / pi_tau (pid_pi c)).
(** [reset], 32-34 *)
Definition pid_reset (c : pid) : pid := {| pid_pi := pi_reset (pid_pi c); pid_d := pid_d c; pid_e := 0 |}.

(** OnOffController, controllers/on_off_controller.py: [hysteresis], the two levels, [action] *)
Record on_off := { oo_h : R; oo_on : Z; oo_off : Z; oo_action : Z }.
(** [control], 26-33 *)
Definition oo_control (c : on_off) (state reference : R) : on_off * Z :=
  let a := if rlt (oo_h c) (reference - state) then oo_on c
           else if rlt (reference - state) (oo_h c) then oo_off c else oo_action c in
  ({| oo_h := oo_h c; oo_on := oo_on c; oo_off := oo_off c; oo_action := a |}, a).
(** [reset], 35-36 *)
Definition oo_reset (c : on_off) : on_off :=
  {| oo_h := oo_h c; oo_on := oo_on c; oo_off := oo_off c; oo_action := oo_on c |}.

(** ThreePointController, controllers/three_point_controller.py: the four switching levels,
    the output values for negative, positive and neutral, [action] and [recent_action] *)
Record three := { tp_pos : R; tp_neg : R; tp_nfp : R; tp_nfn : R; tp_negative : Z; tp_positive : Z; tp_neutral : Z;
                  tp_action : Z; tp_recent : Z }.
Definition tp_with (c : three) (a r : Z) : three :=
  {| tp_pos := tp_pos c; tp_neg := tp_neg c; tp_nfp := tp_nfp c; tp_nfn := tp_nfn c; tp_negative := tp_negative c;
     tp_positive := tp_positive c; tp_neutral := tp_neutral c; tp_action := a; tp_recent := r |}.
(** [control], 38-53 *)
Definition tp_control (c : three) (state reference : R) : three * Z :=
  let e := reference - state in
  if rlt (tp_pos c) e || (rlt (tp_nfp c) e && Z.eqb (tp_recent c) 1) then (tp_with c (tp_positive c) 1, tp_positive c)
  else if rlt e (- tp_neg c) || (rlt e (- tp_nfn c) && Z.eqb (tp_recent c) 2) then (tp_with c (tp_negative c) 2, tp_negative c)
  else (tp_with c (tp_neutral c) 0, tp_neutral c).
(** [reset], 55-57 *)
Definition tp_reset (c : three) : three := tp_with c (tp_neutral c) (tp_neutral c).

(** Any base controller and its methods.  The discrete ones have no [integrate]. *)
Inductive base := BPi (c : pi) | BPid (c : pid) | BOnOff (c : on_off) | BThree (c : three).
Definition b_control (b : base) (state reference : R) : base * R :=
  match b with
  | BPi c => (b, pi_control c state reference)
  | BPid c => let (c', a) := pid_control c state reference in (BPid c', a)
  | BOnOff c => let (c', a) := oo_control c state reference in (BOnOff c', IZR a)
  | BThree c => let (c', a) := tp_control c state reference in (BThree c', IZR a)
  end.
Definition b_integrate (b : base) (state reference : R) : res base :=
  match b with
  | BPi c => Ok (BPi (pi_integrate c state reference))
  | BPid c => Ok (BPid {| pid_pi := pi_integrate (pid_pi c) state reference; pid_d := pid_d c; pid_e := pid_e c |})
  | _ => Err AttributeError
  end.
Definition b_reset (b : base) : base :=
  match b with
  | BPi c => BPi (pi_reset c) | BPid c => BPid (pid_reset c) | BOnOff c => BOnOff (oo_reset c) | BThree c => BThree (tp_reset c)
  end.

(** ** Environments and stages *)
(** The action space: [Box(low, high)], [Discrete(n)] or [MultiDiscrete(nvec)] *)
Inductive space := SBox (low high : list R) | SDisc (n : Z) | SMulti (nvec : list Z).
(** What the controllers read from an environment with a DC motor: state names, state space,
    limits, nominal values, [CURRENTS_IDX], [VOLTAGES_IDX], action space, motor parameters,
    whether the motor is a DcExternallyExcitedMotor, and [tau] *)
Record env := { en_names : list string; en_low : list R; en_high : list R; en_limits : list R; en_nominal : list R;
                en_cur : list nat; en_volt : list nat; en_space : space; en_mp : dict R; en_extex : bool; en_tau : R }.
(** One stage: [stage["controller_type"]] and the numbers in the dictionary *)
Record stage := { st_type : string; st_par : dict R }.
Definition st_get (k : string) (d : R) (s : stage) : R := match dict_get k (st_par s) with Some x => x | None => d end.

(** [_controllers[type][1]], classic_controllers.py 57-79: the class of the stage, continuous
    (true) or discrete; KeyError for an unknown type and IndexError for a whole controller *)
Definition stage_class (t : string) : res bool :=
  if existsb (String.eqb t) ["pi_controller"; "pid_controller"] then Ok true
  else if existsb (String.eqb t) ["on_off"; "three_point"] then Ok false
  else if existsb (String.eqb t) ["cascaded_controller"; "foc_controller"; "cascaded_foc_controller"; "foc_rotor_flux_observer";
                                  "cascaded_foc_rotor_flux_observer"] then Err IndexError
  else Err KeyError.
(** The number of actions a discrete stage is told about, discrete_controller.py 12-17 *)
Definition action_count (s : space) : res Z :=
  match s with
  | SDisc n => Ok n
  | SMulti v => match v with n :: _ => Ok n | [] => Err IndexError end
  | SBox _ _ => Ok 3%Z
  end.
(** [int(x)] of a float: towards zero *)
Definition py_int (x : R) : Z := if rlt x 0 then (- Int_part (- x))%Z else Int_part x.
(** The off level of a discrete stage: on_off_controller.py 20-22 ([ns] = [3, 4]) and
    three_point_controller.py 30-32 ([ns] = [3, 4, 8]) *)
Definition off_level (ns : list Z) (e : env) (cascaded control_e : bool) : res Z :=
  do n <- action_count (en_space e);
  if cascaded then do l <- item (en_low e) 0; Ok (py_int l)
  else Ok (if existsb (Z.eqb n) ns && negb control_e then 2 else 0)%Z.
(** [ContinuousController.make] (continuous_controller.py 4-9) and [DiscreteController.make]
    (discrete_controller.py 10-25) with the constructors pi_controller.py 11-17,
    pid_controller.py 8-22, on_off_controller.py 7-24 and three_point_controller.py 7-36 *)
Definition base_make (e : env) (s : stage) (cascaded control_e : bool) : res base :=
  do _ <- stage_class (st_type s);
  let p := {| pi_p := st_get "p_gain" 5 s; pi_i := st_get "i_gain" 5 s; pi_tau := en_tau e; pi_int := 0 |} in
  if String.eqb (st_type s) "pi_controller" then Ok (BPi p)
  else if String.eqb (st_type s) "pid_controller" then Ok (BPid {| pid_pi := p; pid_d := st_get "d_gain" (5 / 1000) s; pid_e := 0 |})
  else if String.eqb (st_type s) "on_off" then
    do off <- off_level [3; 4]%Z e cascaded control_e;
    Ok (BOnOff {| oo_h := st_get "hysteresis" (2 / 100) s; oo_on := 1; oo_off := off; oo_action := 1 |})
  else
    do off <- off_level [3; 4; 8]%Z e cascaded control_e;
    Ok (BThree {| tp_pos := st_get "switch_to_positive_level" (2 / 100) s; tp_neg := st_get "switch_to_negative_level" (2 / 100) s;
                  tp_nfp := st_get "switch_to_neutral_from_positive" (1 / 100) s;
                  tp_nfn := st_get "switch_to_neutral_from_negative" (1 / 100) s;
                  tp_negative := off; tp_positive := 1; tp_neutral := 0; tp_action := 0; tp_recent := 0 |}).

(** [np.where(ref_states != "i_e")[0][0]] and [np.where(ref_states == "i_e")[0][0]] *)
Fixpoint first_where {A} (p : A -> bool) (l : list A) : res nat :=
  match l with
  | [] => Err IndexError
  | x :: l' => if p x then Ok O else do i <- first_where p l'; Ok (S i)
  end.
Definition not_ie (s : string) : bool := negb (String.eqb s "i_e").
Definition is_ie (s : string) : bool := String.eqb s "i_e".
(** [l[-1]], [l[0]] of an index list *)
Definition last_of {A} (l : list A) : res A := match rev l with x :: _ => Ok x | [] => Err IndexError end.
Definition at_ {A} (l : list A) (i : nat) : res A := match nth_error l i with Some x => Ok x | None => Err IndexError end.
(** [bound * nominal_values[i] / limit[i]] *)
Definition scaled (e : env) (b : R) (i : nat) : res R :=
  do n <- item (en_nominal e) i; do l <- item (en_limits e) i; Ok (b * n / l).

(** ** ContinuousActionController, controllers/continuous_action_controller.py *)
(** The part for the excitation current: reference index, limits and controller *)
Record excitation := { ex_ref : nat; ex_low : R; ex_high : R; ex_ctl : base }.
Record cac := { ca_ref : nat; ca_ref_state : nat; ca_i : nat; ca_u : nat; ca_omega : nat; ca_nominal : list R;
                ca_psi : option R; ca_l : option R; ca_low : R; ca_high : R; ca_ctl : base; ca_exc : option excitation;
                ca_action : list R }.
(** The stages argument: a list of stages, or for the externally excited motor two lists *)
Inductive stages := SList (l : list stage) | SPair (a b : list stage).
(** [__init__], 14-90 *)
Definition ca_new (e : env) (ss : stages) (refs : list string) : res cac :=
  match en_space e with
  | SBox low high =>
      do ri <- first_where not_ie refs;
      do rn <- at_ refs ri; do rs <- str_index rn (en_names e);
      do i <- last_of (en_cur e); do u <- last_of (en_volt e); do om <- str_index "omega" (en_names e);
      do l0 <- item low 0; do h0 <- item high 0;
      do lo <- scaled e l0 u; do hi <- scaled e h0 u;
      do ce <- (if en_extex e then
        match ss with
        | SPair sa sb =>
            do _ <- py_assert (existsb is_ie refs);
            do re <- first_where is_ie refs;
            do s1 <- at_ sb 0; do c1 <- base_make e s1 false false;
            do s0 <- at_ sa 0; do c0 <- base_make e s0 false false;
            do ue <- str_index "u_e" (en_names e);
            do l1 <- item low 1; do h1 <- item high 1;
            do elo <- scaled e l1 ue; do ehi <- scaled e h1 ue;
            Ok (c0, Some {| ex_ref := re; ex_low := elo; ex_high := ehi; ex_ctl := c1 |})
        | SList l => do _ <- py_assert (Nat.eqb (length l) 2); Err KeyError
        end
      else
        do _ <- (if existsb is_ie refs then Ok tt else py_assert (Nat.leb (length refs) 1));
        match ss with
        | SList l => do s0 <- at_ l 0; do c0 <- base_make e s0 false false; Ok (c0, None)
        | SPair _ _ => Err TypeError
        end);
      Ok {| ca_ref := ri; ca_ref_state := rs; ca_i := i; ca_u := u; ca_omega := om; ca_nominal := en_nominal e;
            ca_psi := dict_get "psi_e" (en_mp e); ca_l := dict_get "l_e_prime" (en_mp e); ca_low := lo; ca_high := hi;
            ca_ctl := fst ce; ca_exc := snd ce; ca_action := repeat 0 (length low) |}
  | _ => Err AssertionError
  end.
(** [self.psi_e or x]: None and 0.0 are false *)
Definition py_or (a : option R) (x : res R) : res R :=
  match a with Some v => if req v 0 then x else Ok v | None => x end.
(** [feedforward], 148-155; a missing [l_e] is None, and None * float raises TypeError *)
Definition ca_feedforward (c : cac) (state : list R) : res R :=
  do psi <- py_or (ca_psi c)
    (match ca_l c with
     | None => Err TypeError
     | Some l => do i <- item state (ca_i c); do n <- item (ca_nominal c) (ca_i c); Ok (l * i * n)
     end);
  do w <- item state (ca_omega c); do nw <- item (ca_nominal c) (ca_omega c); do nu <- item (ca_nominal c) (ca_u c);
  Ok (w * nw * psi / nu).
(** Limit the action and integrate, 107-115 and 124-132: the controller and the value written *)
Definition limited (b : base) (lo hi a state reference : R) : res (base * R) :=
  if rle lo a && rle a hi then do b' <- b_integrate b state reference; Ok (b', a)
  else Ok (b, np_clip a lo hi).
(** [control], 92-138; the returned array is [self.action] itself *)
Definition ca_control (c : cac) (state reference : list R) : res (cac * list R) :=
  do s <- item state (ca_ref_state c); do r <- item reference (ca_ref c);
  let (b, y) := b_control (ca_ctl c) s r in
  do ff <- ca_feedforward c state;
  do m <- limited b (ca_low c) (ca_high c) (y + ff) s r;
  do _ <- item (ca_action c) 0;
  let act0 := list_set 0 (snd m) (ca_action c) in
  do x <- match ca_exc c with
    | None => Ok (None, act0)
    | Some x =>
        do se <- item state (ca_i c); do re <- item reference (ex_ref x);
        let (be, ye) := b_control (ex_ctl x) se re in
        do me <- limited be (ex_low x) (ex_high x) ye se re;
        do _ <- item act0 1;
        Ok (Some {| ex_ref := ex_ref x; ex_low := ex_low x; ex_high := ex_high x; ex_ctl := fst me |}, list_set 1 (snd me) act0)
    end;
  Ok ({| ca_ref := ca_ref c; ca_ref_state := ca_ref_state c; ca_i := ca_i c; ca_u := ca_u c; ca_omega := ca_omega c;
         ca_nominal := ca_nominal c; ca_psi := ca_psi c; ca_l := ca_l c; ca_low := ca_low c; ca_high := ca_high c;
         ca_ctl := fst m; ca_exc := fst x; ca_action := snd x |}, snd x).
(** [reset], 142-146 *)
Definition ca_reset (c : cac) : cac :=
  {| ca_ref := ca_ref c; ca_ref_state := ca_ref_state c; ca_i := ca_i c; ca_u := ca_u c; ca_omega := ca_omega c;
     ca_nominal := ca_nominal c; ca_psi := ca_psi c; ca_l := ca_l c; ca_low := ca_low c; ca_high := ca_high c;
     ca_ctl := b_reset (ca_ctl c);
     ca_exc := match ca_exc c with
               | None => None
               | Some x => Some {| ex_ref := ex_ref x; ex_low := ex_low x; ex_high := ex_high x; ex_ctl := b_reset (ex_ctl x) |}
               end;
     ca_action := ca_action c |}.

(** The controller in front of a DeadTimeProcessor
    (src/.../physical_system_wrappers/dead_time_processor.py 63-85): the deque holds
    references, either to an array of its own or to the action array of the controller. *)
Inductive slot := Own (a : list R) | Shared.
Definition slot_value (array : list R) (s : slot) : list R := match s with Own a => a | Shared => array end.
(** One control cycle: the controller writes its array, the processor takes the oldest entry
    (IndexError on an empty deque) and keeps the reference it was given.  The result is the
    new controller, the new deque and the action that is simulated. *)
Definition dead_cycle (c : cac) (deque : list slot) (state reference : list R) : res (cac * list slot * list R) :=
  do r <- ca_control c state reference;
  match rev deque with
  | [] => Err IndexError
  | oldest :: younger => Ok (fst r, Shared :: rev younger, slot_value (ca_action (fst r)) oldest)
  end.

(** ** DiscreteActionController, controllers/dicrete_action_controller.py *)
Record dac := { da_ref : nat; da_ref_state : nat; da_i : nat; da_ctl : base; da_exc : option (nat * base) }.
(** [__init__], 14-60.  For the externally excited motor the second [make] call (53-55)
    lacks the positional argument [_controllers]: TypeError. *)
Definition da_new (e : env) (ss : stages) (refs : list string) : res dac :=
  match en_space e with
  | SBox _ _ => Err AssertionError
  | _ =>
      do ri <- first_where not_ie refs;
      do rn <- at_ refs ri; do rs <- str_index rn (en_names e);
      do i <- last_of (en_cur e);
      if en_extex e then
        match ss with
        | SPair sa sb =>
            do _ <- py_assert (existsb is_ie refs);
            do s1 <- at_ sb 0; do _ <- base_make e s1 false true;
            do s0 <- at_ sa 0; do _ <- stage_class (st_type s0); Err TypeError
        | SList l => do _ <- py_assert (Nat.eqb (length l) 2); Err KeyError
        end
      else
        do _ <- py_assert (Nat.leb (length refs) 1);
        match ss with
        | SList l => do s0 <- at_ l 0; do c0 <- base_make e s0 false false;
                     Ok {| da_ref := ri; da_ref_state := rs; da_i := i; da_ctl := c0; da_exc := None |}
        | SPair _ _ => Err TypeError
        end
  end.
(** [control], 62-86 *)
Definition da_control (c : dac) (state reference : list R) : res (dac * list R) :=
  do s <- item state (da_ref_state c); do r <- item reference (da_ref c);
  let (b, a) := b_control (da_ctl c) s r in
  match da_exc c with
  | None => Ok ({| da_ref := da_ref c; da_ref_state := da_ref_state c; da_i := da_i c; da_ctl := b; da_exc := None |}, [a])
  | Some (re, ce) =>
      do se <- item state (da_i c); do rr <- item reference re;
      let (be, ae) := b_control ce se rr in
      Ok ({| da_ref := da_ref c; da_ref_state := da_ref_state c; da_i := da_i c; da_ctl := b; da_exc := Some (re, be) |}, [a; ae])
  end.
(** [reset], 93-97: with an excitation controller [self.control_e.reset()] is called on a bool *)
Definition da_reset (c : dac) : res dac :=
  match da_exc c with
  | None => Ok {| da_ref := da_ref c; da_ref_state := da_ref_state c; da_i := da_i c; da_ctl := b_reset (da_ctl c); da_exc := None |}
  | Some _ => Err AttributeError
  end.
