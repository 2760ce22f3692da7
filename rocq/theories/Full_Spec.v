(** What a user of an environment may rely on, and what a configuration must meet. *)
From Verif Require Import PyBase PyDict Solver_Model Scipy_Model Scipy_Spec Wrap_Model RefGen_Model Preset_Model Env_Model Full_Model.
Local Open Scope string_scope. Local Open Scope list_scope. Local Open Scope R_scope.

(** Number of ODE states and of converter outputs of each motor; the physical system it belongs to. *)
Definition ode_states (m : motor_class) : nat :=
  match m with PermExDc | SeriesDc => 1 | ExtExDc | ShuntDc => 2 | Pmsm | Synrm => 3 | Eesm => 4 | Scim | Dfim => 5 end.
Definition phases (m : motor_class) : nat := match m with PermExDc | SeriesDc | ShuntDc => 1 | ExtExDc => 2 | Pmsm | Synrm | Scim => 3 | Eesm => 4 | Dfim => 6 end.
Definition system_of (m : motor_class) : sys_class :=
  match m with PermExDc | SeriesDc | ExtExDc | ShuntDc => DcSys | Pmsm | Synrm => SyncSys | Eesm => EesmSys | Scim => ScimSys | Dfim => DfimSys end.
(** A solver that works on every equation that is defined for states of some length and inputs
    of some kind: no call raises and the states it returns have that length. *)
Definition solver_sound (s : any_solver) : Prop :=
  forall U (f : rhs U) PP n, defined_on f PP n ->
  exists B Q, solver_total (an_if s U) PP n B Q /\ B (so_equation (an_if s U) f (an_jacobian s U) (an_new s U)).
(** The arrays the caller of the model supplies have the lengths the constructors produce. *)
Definition data_fits (p : preset) (d : data) : Prop :=
  solver_sound (d_solver d) /\ (forall k, length (fst (d_inits d k)) = 1%nat /\ length (snd (d_inits d k)) = ode_states (pr_motor p)) /\
  let n := length (motor_states (pr_motor p)) in
  length (d_limits d) = n /\ length (d_nominal d) = n /\ length (d_low d) = n /\ length (d_high d) = n.

(** [action_space.contains] without the bounds of a Box *)
Definition act_valid (sp : aspace) (a : action) : Prop :=
  match sp, a with
  | SDisc n, ADisc x => (0 <= x < n)%Z
  | SMulti ns, AMulti xs => Forall2 (fun n x => 0 <= x < n)%Z ns xs
  | SBox n, ABox l => length l = n
  | _, _ => False
  end.
Definition conv_phases (c : conv_class) : nat :=
  let dim e := match e with Fin4 | Cont4 => 1 | FinB6 | ContB6 => 3 end%nat in
  match c with Single e => dim e | Multi _ l => list_sum (map dim l) end.
Definition is_fin (e : elementary) : bool := match e with Fin4 | FinB6 => true | _ => false end.
Definition sys_class_eqb (a b : sys_class) : bool :=
  match a, b with DcSys, DcSys | SyncSys, SyncSys | EesmSys, EesmSys | ScimSys, ScimSys | DfimSys, DfimSys => true | _, _ => false end.
(** System, motor and converter of an entry belong together. *)
Definition plant_check (p : preset) : bool :=
  sys_class_eqb (system_of (pr_motor p)) (pr_sys p) && Nat.eqb (conv_phases (pr_conv p)) (phases (pr_motor p)) &&
  match pr_conv p with Single _ => true | Multi b l => forallb (fun e => Bool.eqb (is_fin e) b) l end.

(** ** Configurations that fit together *)
(** State names after the wrappers. *)
Definition all_names (p : preset) : list string := motor_states (pr_motor p) ++ map (fun _ => "i_sum") (pr_wrappers p).
Definition ref_list (r : ref_class) : list wiener_ref := match r with One r => [r] | Several l => l end.
(** The state exists and sigma is positive. *)
Definition ref_ok (names : list string) (r : wiener_ref) : Prop := In (lower (rf_state r)) names /\ 0 < fst (rf_sigma r) /\ 0 < snd (rf_sigma r).
Definition con_known (names : list string) (c : dconstraint) : Prop :=
  match c with
  | DName s => s <> "all_states" -> In (lower s) names
  | DSquared ss => forall s, In s ss -> In s names
  | DLimit ss => forall s, In s ss -> s <> "all_states" -> In (lower s) names
  end.
Record fits_together (p : preset) : Prop := {
  ft_plant : plant_check p = true;
  ft_names : NoDup (all_names p) /\ forall s, In s (all_names p) -> lower s = s;
  ft_wrappers : forall w, In w (pr_wrappers p) -> w <> [] /\ forall k, In k w -> In k (motor_states (pr_motor p));
  ft_refs : ref_list (pr_refs p) <> [] /\ NoDup (map (fun r => lower (rf_state r)) (ref_list (pr_refs p))) /\ Forall (ref_ok (all_names p)) (ref_list (pr_refs p));
  ft_constraints : Forall (con_known (all_names p)) (pr_constraints p);
  ft_weights : forall k, In k (dict_keys (pr_weights p)) -> In (lower k) (all_names p) }.
(** [state_filter]: nothing, or known names. *)
Definition filter_known (p : preset) (f : option (list string)) : Prop := forall l s, f = Some l -> In s l -> In s (all_names p).
(** Length of an observation. *)
Definition filter_size (p : preset) (f : option (list string)) : nat :=
  match f with None | Some [] => length (all_names p) | Some l => length l end.

(** ** The protocol *)

Section Protocol.
Context {Act Ref Obs P G W : Type}.
(** The calls a user makes: the attributes of the environment are not replaced. *)
Definition allowed (valid : Act -> Prop) (o : op Act G W) : Prop :=
  match o with Reset _ | Close => True | Step a => valid a | SetReferenceGenerator _ | SetRewardFunction _ => False end.

(** A well-behaved history.  The flag tells whether [step] is refused: initially and after a
    step that reported termination, until the next reset. *)
Inductive protocol (nf : nat) (fo : Obs -> Prop) : bool -> list (op Act G W * outcome Obs) -> Prop :=
| pt_nil b : protocol nf fo b []
| pt_reset b z st ob l : length st = nf -> fo ob -> protocol nf fo false l -> protocol nf fo b ((Reset z, DidReset (st, ob)) :: l)
| pt_step a o l : length (so_state o) = nf -> fo (so_ref o) -> so_truncated o = false -> protocol nf fo (so_terminated o) l -> protocol nf fo false ((Step a, DidStep o) :: l)
| pt_late a l : protocol nf fo true l -> protocol nf fo true ((Step a, Raised AssertionError) :: l)
| pt_close b l : protocol nf fo b l -> protocol nf fo b ((Close, DidOther) :: l).
End Protocol.
