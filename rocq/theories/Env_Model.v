(** Model of [ElectricMotorEnvironment] (src/gym_electric_motor/core.py).

    The physical system, reference generator, reward function, constraint
    monitor and callbacks are external code: they are arbitrary functions
    bundled in a [system] record, over which every theorem quantifies.  Each of
    their calls may raise.  A failing call leaves the changes made so far in
    place, as in Python.

    Simplifications: callbacks receive the values they are passed but cannot
    modify the environment (callbacks that do, like RampingLimitMargin, have a
    model of their own); rendering is left out; the info dictionary is always
    empty and left out. *)
From Verif Require Import PyBase.

Section Env.

(** Action, reference array and reference observation are opaque values. *)
Context {Act Ref Obs : Type}.
(** Internal states of physical system, reference generator, reward function. *)
Context {P G W : Type}.

(** A state array (numpy float vector). *)
Definition vec := list R.

(** Notifications of [Callback], core.py 708-740. *)
Inductive event :=
| OnSetEnv
| OnResetBegin
| OnResetEnd (st : vec) (ref : Ref)
| OnStepBegin (k : nat) (a : Act)
| OnStepEnd (k : nat) (st : vec) (ref : Ref) (reward : R) (terminated : bool)
| OnClose.

(** A delivered notification: index of the callback and the event. *)
Definition delivery := (nat * event)%type.

(** The external modules of an environment. *)
Record system := {
  ps_reset    : P -> P * res vec;             (* PhysicalSystem.reset, core.py 678-685 *)
  ps_simulate : P -> Act -> P * res vec;      (* PhysicalSystem.simulate, 687-698 *)
  ps_k        : P -> nat;                     (* PhysicalSystem.k, 606-612 *)
  rg_reset    : G -> vec -> G * res (Ref * Obs);  (* ReferenceGenerator.reset, 485-505 *)
  rg_get      : G -> vec -> G * res Ref;      (* get_reference, 459-471 *)
  rg_obs      : G -> vec -> G * res Obs;      (* get_reference_observation, 473-483 *)
  rw_reset    : W -> vec -> Ref -> W * res unit;  (* RewardFunction.reset, 573-582 *)
  rw_reward   : W -> vec -> Ref -> nat -> Act -> R -> W * res R;  (* reward, 554-571 *)
  cm_check    : vec -> res R;                 (* ConstraintMonitor.check_constraints, 834-844 *)
  seed_all    : P * G * W -> option Z -> P * G * W;  (* _seed, 373-385 *)
  n_callbacks : nat;                          (* len(self._callbacks) *)
  (* Does callback [i] raise when it receives the event after the given
     deliveries?  Arbitrary, history dependent. *)
  cb_raises   : list delivery -> nat -> event -> option exn
}.

(** Instance attributes of the environment, core.py 237-289. *)
Record env := {
  e_ps : P;
  e_rg : G;
  e_rw : W;
  e_terminated : bool;          (* self._terminated *)
  e_truncated : bool;           (* self._truncated *)
  e_filter : list nat           (* self.state_filter *)
}.

(** The environment together with everything delivered to callbacks so far. *)
Record world := { w_env : env; w_trace : list delivery }.

Definition M (A : Type) := world -> world * res A.
Definition ret {A} (a : A) : M A := fun w => (w, Ok a).
Definition raise {A} (e : exn) : M A := fun w => (w, Err e).
Definition mbind {A B} (m : M A) (f : A -> M B) : M B :=
  fun w => match m w with
           | (w', Ok a) => f a w'
           | (w', Err e) => (w', Err e)
           end.
Notation "x <- m ;; f" := (mbind m (fun x => f)) (at level 61, m at next level, right associativity).
Notation "m1 ;;; m2" := (mbind m1 (fun _ => m2)) (at level 61, right associativity).

Definition get_env : M env := fun w => (w, Ok (w_env w)).
Definition put_env (f : env -> env) : M unit :=
  fun w => ({| w_env := f (w_env w); w_trace := w_trace w |}, Ok tt).
Definition lift {A} (r : res A) : M A := fun w => (w, r).

Definition with_ps (p : P) (e : env) :=
  {| e_ps := p; e_rg := e_rg e; e_rw := e_rw e; e_terminated := e_terminated e;
     e_truncated := e_truncated e; e_filter := e_filter e |}.
Definition with_rg (g : G) (e : env) :=
  {| e_ps := e_ps e; e_rg := g; e_rw := e_rw e; e_terminated := e_terminated e;
     e_truncated := e_truncated e; e_filter := e_filter e |}.
Definition with_rw (r : W) (e : env) :=
  {| e_ps := e_ps e; e_rg := e_rg e; e_rw := r; e_terminated := e_terminated e;
     e_truncated := e_truncated e; e_filter := e_filter e |}.
Definition with_terminated (b : bool) (e : env) :=
  {| e_ps := e_ps e; e_rg := e_rg e; e_rw := e_rw e; e_terminated := b;
     e_truncated := e_truncated e; e_filter := e_filter e |}.

Variable sys : system.

(** Calls on the modules: the new internal state is stored even when the call
    raises. *)
Definition call_ps {A} (f : P -> P * res A) : M A :=
  fun w => let (p, r) := f (e_ps (w_env w)) in
           ({| w_env := with_ps p (w_env w); w_trace := w_trace w |}, r).
Definition call_rg {A} (f : G -> G * res A) : M A :=
  fun w => let (g, r) := f (e_rg (w_env w)) in
           ({| w_env := with_rg g (w_env w); w_trace := w_trace w |}, r).
Definition call_rw {A} (f : W -> W * res A) : M A :=
  fun w => let (x, r) := f (e_rw (w_env w)) in
           ({| w_env := with_rw x (w_env w); w_trace := w_trace w |}, r).

(** One callback invocation: the delivery is recorded, then the callback may
    raise. *)
Definition call_one (i : nat) (ev : event) : M unit :=
  fun w => let w' := {| w_env := w_env w; w_trace := w_trace w ++ [(i, ev)] |} in
           match cb_raises sys (w_trace w) i ev with
           | None => (w', Ok tt)
           | Some e => (w', Err e)
           end.

(** [for callback in self._callbacks: getattr(callback, name)(...)], core.py 294-298. *)
Fixpoint call_from (i n : nat) (ev : event) : M unit :=
  match n with
  | O => ret tt
  | S n' => call_one i ev ;;; call_from (S i) n' ev
  end.
Definition call_callbacks (ev : event) : M unit := call_from 0 (n_callbacks sys) ev.

(** [self._seed(seed)], core.py 373-385 (what it does to the streams is in
    Seed_Model.v; here it may change the modules arbitrarily). *)
Definition m_seed (seed : option Z) : M unit :=
  put_env (fun e => let '(p, g, r) := seed_all sys (e_ps e, e_rg e, e_rw e) seed in
                    with_ps p (with_rg g (with_rw r e))).

(** [state[self.state_filter]] *)
Definition filtered (st : vec) : M vec :=
  e <- get_env ;; lift (select (e_filter e) st).

(** [reset], core.py 300-319. *)
Definition env_reset (seed : option Z) : M (vec * Obs) :=
  m_seed seed ;;;
  call_callbacks OnResetBegin ;;;
  put_env (with_terminated false) ;;;
  state <- call_ps (ps_reset sys) ;;
  rr <- call_rg (fun g => rg_reset sys g state) ;;
  call_rw (fun x => rw_reset sys x state (fst rr)) ;;;
  call_callbacks (OnResetEnd state (fst rr)) ;;;
  obs <- filtered state ;;
  ret (obs, snd rr).

(** What [step] returns: observation, reward, terminated, truncated. *)
Record step_out := {
  so_state : vec;
  so_ref : Obs;
  so_reward : R;
  so_terminated : bool;
  so_truncated : bool
}.

(** [step], core.py 328-371. *)
Definition env_step (action : Act) : M step_out :=
  e0 <- get_env ;;
  lift (py_assert (negb (e_terminated e0))) ;;;                       (* 341 *)
  call_callbacks (OnStepBegin (ps_k sys (e_ps e0)) action) ;;;        (* 342 *)
  state <- call_ps (fun p => ps_simulate sys p action) ;;             (* 344 *)
  reference <- call_rg (fun g => rg_get sys g state) ;;               (* 346 *)
  violation_degree <- lift (cm_check sys state) ;;                    (* 348 *)
  e1 <- get_env ;;
  reward <- call_rw (fun x => rw_reward sys x state reference
                               (ps_k sys (e_ps e1)) action violation_degree) ;;  (* 349 *)
  put_env (with_terminated (rle 1 violation_degree)) ;;;              (* 350 *)
  ref_next <- call_rg (fun g => rg_obs sys g state) ;;                (* 351 *)
  e2 <- get_env ;;
  call_callbacks (OnStepEnd (ps_k sys (e_ps e2)) state reference reward
                            (e_terminated e2)) ;;;                    (* 355-362 *)
  obs <- filtered state ;;
  e3 <- get_env ;;
  ret {| so_state := obs; so_ref := ref_next; so_reward := reward;
         so_terminated := e_terminated e3; so_truncated := e_truncated e3 |}.  (* 365-371 *)

(** Setters, core.py 133-142 and 152-161: they do not announce the modules to
    the new component. *)
Definition env_set_rg (g : G) : M unit :=
  put_env (fun e => with_terminated true (with_rg g e)).
Definition env_set_rw (r : W) : M unit :=
  put_env (fun e => with_terminated true (with_rw r e)).

(** [close], core.py 387-392 (the modules' own close methods are empty in the
    base classes and left out). *)
Definition env_close : M unit := call_callbacks OnClose.

(** The operations a user can perform, and what they see. *)
Inductive op :=
| Reset (seed : option Z)
| Step (a : Act)
| SetReferenceGenerator (g : G)
| SetRewardFunction (r : W)
| Close.

Inductive outcome :=
| DidReset (o : vec * Obs)
| DidStep (o : step_out)
| DidOther
| Raised (e : exn).

Definition run_op (o : op) (w : world) : world * outcome :=
  match o with
  | Reset s => match env_reset s w with
               | (w', Ok x) => (w', DidReset x) | (w', Err e) => (w', Raised e) end
  | Step a => match env_step a w with
              | (w', Ok x) => (w', DidStep x) | (w', Err e) => (w', Raised e) end
  | SetReferenceGenerator g => match env_set_rg g w with
              | (w', Ok _) => (w', DidOther) | (w', Err e) => (w', Raised e) end
  | SetRewardFunction r => match env_set_rw r w with
              | (w', Ok _) => (w', DidOther) | (w', Err e) => (w', Raised e) end
  | Close => match env_close w with
              | (w', Ok _) => (w', DidOther) | (w', Err e) => (w', Raised e) end
  end.

(** A history: the operations in order together with their outcomes. *)
Fixpoint run (ops : list op) (w : world) : world * list (op * outcome) :=
  match ops with
  | [] => (w, [])
  | o :: ops' =>
      let (w1, out) := run_op o w in
      let (w2, outs) := run ops' w1 in
      (w2, (o, out) :: outs)
  end.

(** Constructor, core.py 282-289: [_terminated = True], [_truncated = False],
    then [set_env] on every callback. *)
Definition env_init (p : P) (g : G) (r : W) (filt : list nat) : world * res unit :=
  call_callbacks OnSetEnv
    {| w_env := {| e_ps := p; e_rg := g; e_rw := r; e_terminated := true;
                   e_truncated := false; e_filter := filt |};
       w_trace := [] |}.

End Env.

Arguments system : clear implicits.
Arguments env : clear implicits.
Arguments world : clear implicits.
Arguments event : clear implicits.
Arguments delivery : clear implicits.
Arguments op : clear implicits.
Arguments outcome : clear implicits.
Arguments step_out : clear implicits.

(** State filter of the constructor, core.py 272-277: [state_filter or
    state_names], then [state_names.index(s)] for each (ValueError if unknown). *)
Fixpoint filter_indices (names : list string) (f : list string) : res (list nat) :=
  match f with
  | [] => Ok []
  | s :: f' => do i <- str_index s names; do r <- filter_indices names f'; Ok (i :: r)
  end.
Definition init_filter (names : list string) (f : option (list string)) : res (list nat) :=
  match f with
  | None => filter_indices names names
  | Some [] => filter_indices names names
  | Some f => filter_indices names f
  end.

(** [state_names] (core.py 175-180), [limits] (168-173), [nominal_state]
    (187-190), bounds of the observation space (275-277): all select with the
    same index list. *)
Definition env_state_names (idx : list nat) (names : list string) := select idx names.
Definition env_limits (idx : list nat) (limits : list R) := select idx limits.
Definition env_nominal (idx : list nat) (nominal : list R) := select idx nominal.
Definition env_space_low (idx : list nat) (low : list R) := select idx low.
Definition env_space_high (idx : list nat) (high : list R) := select idx high.
Definition env_observation (idx : list nat) (state : list R) := select idx state.

(** [ElectricMotorEnvironment.sim], core.py 42-50, 110, 234: one
    SimulationEnvironment object on the class; [__init__] writes its [tau].
    The only writes in the code base are the ones in the constructor; [step]
    is never written. *)
Record sim_obj := { sim_tau : R; sim_step : nat }.
Definition sim_class_init : sim_obj := {| sim_tau := 0; sim_step := 0 |}.
(** Constructing an environment with sampling time [tau]; the new instance has
    no [sim] of its own, attribute lookup finds the class object. *)
Definition construct_env (c : sim_obj) (tau : R) : sim_obj :=
  {| sim_tau := tau; sim_step := sim_step c |}.
(** [env.sim.tau] and [env.sim.t] of any instance. *)
Definition env_sim_tau (c : sim_obj) : R := sim_tau c.
Definition env_sim_t (c : sim_obj) : R := sim_tau c * INR (sim_step c).
