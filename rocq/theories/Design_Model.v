(** Model of [Controller.make] for DC motors: examples/classic_controllers/classic_controllers.py
    (line numbers below without a file name are of that file).  See Ex_Model.v for the
    simplifications of the controllers themselves.

    Further simplifications: the plots are left out (they only receive values); the entry "l"
    that 344-347 leave in the motor parameters is not kept; stages are dictionaries with the
    key "controller_type" and numbers; lists of stages that mix dictionaries and lists, or
    that hold one or more than two lists, are not covered.  A local variable that is read
    before it is assigned (UnboundLocalError) is [PlainException].  The gains are computed in
    the reals: the sampling time and the design parameter [a] must not be zero (with zero
    Python raises ZeroDivisionError). *)
From Verif Require Import PyBase PyDict Transform_Model PhysSys_Model Ex_Model Ex_Model2.
Local Open Scope string_scope.
Local Open Scope list_scope.
Local Open Scope R_scope.

(** How the environment object is handed over: an instance of the environment class itself, or
    the result of [gem.make] (src/gym_electric_motor/core.py 291-292), which is a gymnasium
    wrapper.  Wrappers of gymnasium before 1.0 pass unknown attributes on to the environment,
    later ones do not; requirements.txt 6 allows both.  [unwrapped] and [action_space] can be
    read in all cases. *)
Inductive access := Bare | Forwarding | Opaque.
(** Reading any other attribute of [environment] *)
Definition attribute (a : access) : res unit := match a with Opaque => Err AttributeError | _ => Ok tt end.

(** The environment: what the controllers read (Ex_Model), whether the motor is a
    DcSeriesMotor, whether [physical_system] is a PhysicalSystemWrapper around the
    DcMotorSystem, the kind of the object, [j_total] and the referenced states (118-133) *)
Record dc := { dc_env : env; dc_series : bool; dc_wrapped : bool; dc_access : access; dc_j : R; dc_refs : list string }.
Definition is_box (s : space) : bool := match s with SBox _ _ => true | _ => false end.
(** ["x" in ref_states] *)
Definition has (x : string) (l : list string) : bool := existsb (String.eqb x) l.

(** The entries of [_controllers], 57-79, by their first element; None for the controllers of
    three-phase motors, which are not covered here *)
Inductive cls := KCont | KDisc | KCasc.
Definition known_types : list string :=
  ["pi_controller"; "pid_controller"; "on_off"; "three_point"; "cascaded_controller"; "foc_controller"; "cascaded_foc_controller";
   "foc_rotor_flux_observer"; "cascaded_foc_rotor_flux_observer"].
Definition class_of (t : string) : option cls :=
  if has t ["pi_controller"; "pid_controller"] then Some KCont
  else if has t ["on_off"; "three_point"] then Some KDisc
  else if String.eqb t "cascaded_controller" then Some KCasc else None.

(** [automated_controller_design], 187-219: type of the controller and stages *)
Definition dc_design (d : dc) : res (string * stages) :=
  let out := {| st_type := if is_box (en_space (dc_env d)) then "pi_controller" else "three_point"; st_par := [] |} in
  do x <- (if has "omega" (dc_refs d) || has "torque" (dc_refs d)
           then Ok ("cascaded_controller", [out; {| st_type := "pi_controller"; st_par := [] |}])
           else if has "i" (dc_refs d) || has "i_a" (dc_refs d) then Ok (st_type out, [out])
           else Err PlainException);
  Ok (fst x, if en_extex (dc_env d) then SPair (snd x) [out] else SList (snd x)).

(** What a user can pass as [stages]: a string, a dictionary or a list *)
Inductive user := UStr (t : string) | UDict (s : stage) | UStages (ss : stages).
(** [find_controller_type], 139-155 and, for a wrapped physical system, 157-184: no branch is
    taken, [controller_type] is unbound at the return *)
Definition dc_find (d : dc) (u : user) : res (string * stages) :=
  if dc_wrapped d then do _ <- attribute (dc_access d); Err PlainException
  else
    match u with
    | UStr t => Ok (t, SList [{| st_type := t; st_par := [] |}])
    | UDict s => Ok (st_type s, SList [s])
    | UStages (SList l as ss) =>
        if Nat.ltb 1 (length l) then Ok ("cascaded_controller", ss) else do s <- at_ l 0; Ok (st_type s, ss)
    | UStages (SPair l _ as ss) =>
        if Nat.ltb 1 (length l) then Ok ("cascaded_controller", ss) else do s <- at_ l 0; Ok (st_type s, ss)
    end.

(** ** [automated_gain], 299-628, for DC motors *)
(** The limits that are read, 317-324: of omega, and of the first and last current and voltage;
    the inductance, 344-347 *)
Record lims := { lm_omega : R; lm_ia : R; lm_ie : R; lm_ua : R; lm_ue : R; lm_l : R }.
Definition read_lims (d : dc) : res lims :=
  let e := dc_env d in
  do om <- str_index "omega" (en_names e); do wl <- item (en_limits e) om;
  do ci <- at_ (en_cur e) 0; do il <- item (en_limits e) ci; do ce <- last_of (en_cur e); do iel <- item (en_limits e) ce;
  do vi <- at_ (en_volt e) 0; do ul <- item (en_limits e) vi; do ve <- last_of (en_volt e); do uel <- item (en_limits e) ve;
  do la <- dict_item "l_a" (en_mp e);
  do l <- (if dc_series d then do le <- dict_item "l_e" (en_mp e); Ok (la + le) else Ok la);
  Ok {| lm_omega := wl; lm_ia := il; lm_ie := iel; lm_ua := ul; lm_ue := uel; lm_l := l |}.
(** [type(environment) in cont_extex_envs] or [finite_extex_envs], 350-378: only for an
    instance of one of the six environment classes itself *)
Definition typed (d : dc) : bool := match dc_access d with Bare => en_extex (dc_env d) | _ => false end.
Definition pi_gains (p i : R) (s : stage) : stage := set_default "i_gain" i (set_default "p_gain" p s).
Definition is_pid (s : stage) : bool := String.eqb (st_type s) "pid_controller".
(** The excitation stage, 361-372; 370 compares a string with a class, so a derivative gain is
    never set *)
Definition exc_gains (d : dc) (m : lims) (a : R) (sb : list stage) : res (list stage) :=
  do le <- dict_item "l_e" (en_mp (dc_env d));
  let p := le / (en_tau (dc_env d) * a) / lm_ue m * lm_ie m in
  let i := p / (en_tau (dc_env d) * (a * a)) in
  do s <- at_ sb 0; Ok (list_set 0 (pi_gains p i s) sb).
(** [stages_a] and [stages_e], 360-378.  A dictionary indexed with 0 raises KeyError. *)
Definition split_stages (d : dc) (m : lims) (a : R) (k : cls) (ss : stages) : res stages :=
  if typed d then
    match ss with
    | SPair sa sb => if is_box (en_space (dc_env d)) then do sb' <- exc_gains d m a sb; Ok (SPair sa sb') else Ok ss
    | SList l =>
        do _ <- at_ l 0; do _ <- at_ l 1;
        if is_box (en_space (dc_env d)) then do _ <- dict_item "l_e" (en_mp (dc_env d)); Err KeyError
        else match k with KCasc => Err KeyError | _ => Ok ss end
    end
  else Ok ss.
(** The stage of a ContinuousActionController, 380-407 *)
Definition cont_gains (d : dc) (m : lims) (a : R) (s : stage) : res stage :=
  if has "i" (dc_refs d) || has "i_a" (dc_refs d) || has "torque" (dc_refs d) then
    do _ <- attribute (dc_access d); auto_current (dc_env d) (dc_series d) a s
  else if has "omega" (dc_refs d) then
    do _ <- attribute (dc_access d);
    do ra <- dict_item "r_a" (en_mp (dc_env d));
    let p := dc_j d * (ra * ra) / (a * lm_l m) / lm_ua m * lm_omega m in
    let s1 := pi_gains p (p / (a * lm_l m)) s in
    Ok (if is_pid s then set_default "d_gain" (p * en_tau (dc_env d)) s1 else s1)
  else Ok s.
(** Stage number [i] of a CascadedController, 410-465.  [prev] are the gains that were computed
    last: stages after the second get those.  [inner] tells that the stage is the first of a
    list inside the list (411-437) instead of a dictionary (439-465); in the latter case the
    derivative gain of the first stage reads [environment.physical_system] (448). *)
Definition casc_gains (d : dc) (m : lims) (a : R) (inner : bool) (i : nat) (prev : option (R * R)) (s : stage) :
    res (option (R * R) * stage) :=
  let tau := en_tau (dc_env d) in
  do c <- stage_class (st_type s);
  if c then
    let g := match i with
      | O => let p := lm_l m / (tau * a) / lm_ua m * lm_ia m in Some (p, p / (tau * (a * a)))
      | S O => let p := dc_j d / (a * (tau * (a * a))) / lm_ia m * lm_omega m in Some (p, p / (a * (tau * (a * a))))
      | _ => prev
      end in
    do _ <- (if is_pid s && Nat.eqb i 0 && negb inner then attribute (dc_access d) else Ok tt);
    match g with
    | None => Err PlainException
    | Some (p, q) => Ok (g, pi_gains p q (if is_pid s && Nat.ltb i 2 then set_default "d_gain" (p * tau) s else s))
    end
  else Ok (prev, s).
(** The loop over dictionaries, 410-465: the first [n] stages *)
Fixpoint casc_loop (d : dc) (m : lims) (a : R) (n i : nat) (prev : option (R * R)) (l : list stage) : res (list stage) :=
  match n with
  | O => Ok l
  | S n' =>
      match l with
      | [] => Err IndexError
      | s :: l' => do x <- casc_gains d m a false i prev s; do r <- casc_loop d m a n' (S i) (fst x) l'; Ok (snd x :: r)
      end
  end.
(** All stages, 349-467.  A list has no [get]: AttributeError. *)
Definition dc_gain (d : dc) (a : R) (k : cls) (ss : stages) : res stages :=
  do m <- read_lims d;
  do s1 <- split_stages d m a k ss;
  match k, s1 with
  | KDisc, _ => Ok s1
  | KCont, SList l => do s <- at_ l 0; do s' <- cont_gains d m a s; Ok (SList (list_set 0 s' l))
  | KCont, SPair sa sb =>
      if typed d then do s <- at_ sa 0; do s' <- cont_gains d m a s; Ok (SPair (list_set 0 s' sa) sb)
      else if has "i" (dc_refs d) || has "i_a" (dc_refs d) || has "torque" (dc_refs d) || has "omega" (dc_refs d) then
        do _ <- attribute (dc_access d); Err AttributeError
      else Ok s1
  | KCasc, SList l => do l' <- casc_loop d m a (length l) 0 None l; Ok (SList l')
  | KCasc, SPair sa sb =>
      if typed d then do sa' <- casc_loop d m a 2 0 None sa; Ok (SPair sa' sb)
      else
        do s0 <- at_ sa 0; do x <- casc_gains d m a true 0 None s0;
        do s1 <- at_ sb 0; do y <- casc_gains d m a true 1 (fst x) s1;
        Ok (SPair (list_set 0 (snd x) sa) (list_set 0 (snd y) sb))
  end.

(** ** [make], 40-93 *)
Inductive made := MCont (c : cac) | MDisc (c : dac) | MCasc (c : cas).
(** The constructors.  continuous_action_controller.py 23-25 and dicrete_action_controller.py
    23-28 ask for [environment.physical_system] to be a DcMotorSystem, which a wrapper is not.
    Simplification: a cascade with a discrete stage after the first reads
    [environment.physical_system] (three_point_controller.py 31-32); in the opaque case it is
    treated as if this raised first. *)
Definition construct (d : dc) (k : cls) (ss : stages) : res made :=
  match k with
  | KCont =>
      do _ <- py_assert (is_box (en_space (dc_env d)));
      do _ <- attribute (dc_access d); do _ <- py_assert (negb (dc_wrapped d));
      do c <- ca_new (dc_env d) ss (dc_refs d); Ok (MCont c)
  | KDisc =>
      do _ <- py_assert (negb (is_box (en_space (dc_env d))));
      do _ <- attribute (dc_access d); do _ <- py_assert (negb (dc_wrapped d));
      do c <- da_new (dc_env d) ss (dc_refs d); Ok (MDisc c)
  | KCasc =>
      let l := match ss with SList l => l | SPair l _ => l end in
      do _ <- (if existsb (fun s => has (st_type s) ["on_off"; "three_point"]) (tl l) then attribute (dc_access d) else Ok tt);
      do c <- cc_new (dc_env d) ss (dc_refs d); Ok (MCasc c)
  end.
(** [make(environment, stages, a=a, automated_gain=auto)]; None if the type is one of the
    controllers that are not covered *)
Definition make (d : dc) (u : option user) (a : R) (auto : bool) : option (res made) :=
  match (match u with
         | None => dc_design d
         | Some v => do x <- dc_find d v; do _ <- py_assert (has (fst x) known_types); Ok x
         end) with
  | Err x => Some (Err x)
  | Ok (t, ss) =>
      match class_of t with
      | None => None
      | Some k => Some (do _ <- read_lims d; do s <- (if auto then dc_gain d a k ss else Ok ss); construct d k s)
      end
  end.
