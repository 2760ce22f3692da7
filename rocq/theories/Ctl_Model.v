(** Model of the stages of src/gem_controllers: parameter_reader.py, utils.py, stages/*.py.

    numpy arrays of dimension one are lists of reals.  Division by zero gives inf or NaN in
    numpy; here it is the division of [R], and theorems about it assume nonzero divisors.
    [tune] methods that raise leave a half tuned object behind; nothing uses it because the
    exception leaves [GemController.make], so here they only return the exception.
    Plots, block diagrams and the setters of single attributes are not modelled. *)
From Verif Require Import PyBase PyDict Transform_Model Conv_Model Wrap_Model.
Local Open Scope string_scope.
Local Open Scope list_scope.
Local Open Scope R_scope.

(** ** numpy *)
(** Elementwise operation on two arrays; an array of length one is broadcast. *)
Definition np_bin (f : R -> R -> R) (a b : list R) : res (list R) :=
  if Nat.eqb (length a) (length b) then Ok (map2 f a b)
  else match a, b with
       | [x], _ => Ok (map (f x) b)
       | _, [y] => Ok (map (fun x => f x y) a)
       | _, _ => Err ValueError
       end.
(** [a += b]: the array on the left keeps its shape. *)
Definition np_iadd (a b : list R) : res (list R) :=
  if Nat.eqb (length a) (length b) then Ok (map2 Rplus a b)
  else match b with [y] => Ok (map (fun x => x + y) a) | _ => Err ValueError end.
(** [np.clip(x, lo, hi)] of arrays *)
Definition np_clips (x lo hi : list R) : res (list R) := do y <- np_bin Rmax x lo; np_bin Rmin y hi.
(** [np.select([c1, c2], [v1, v2], default=d)]: operands broadcast to the greatest length. *)
Definition np_bc {A} (n : nat) (l : list A) : res (list A) :=
  if Nat.eqb (length l) n then Ok l else match l with [x] => Ok (repeat x n) | _ => Err ValueError end.
Definition np_select {A} (c1 c2 : list bool) (v1 v2 d : list A) : res (list A) :=
  let n := fold_right Nat.max O [length c1; length c2; length v1; length v2; length d] in
  do c1 <- np_bc n c1; do c2 <- np_bc n c2; do v1 <- np_bc n v1; do v2 <- np_bc n v2; do d <- np_bc n d;
  Ok (map2 (fun (c : bool * bool) (v : A * A * A) => if fst c then fst (fst v) else if snd c then snd (fst v) else snd v)
           (combine c1 c2) (combine (combine v1 v2) d)).
(** Comparison of two arrays of equal length or with one of length one. *)
Definition np_cmp (f : R -> R -> bool) (a b : list R) : res (list bool) :=
  if Nat.eqb (length a) (length b) then Ok (map2 f a b)
  else match a, b with
       | [x], _ => Ok (map (f x) b)
       | _, [y] => Ok (map (fun x => f x y) a)
       | _, _ => Err ValueError
       end.

(** ** utils.py 38-51: [env_id.split("-")[:3]] and its parts *)
Fixpoint split_dash (s : string) : list string :=
  match s with
  | String.EmptyString => [String.EmptyString]
  | String.String c r =>
      if Ascii.eqb c (Ascii.ascii_of_nat 45) then String.EmptyString :: split_dash r
      else match split_dash r with
           | w :: ws => String.String c w :: ws
           | [] => [String.String c String.EmptyString]
           end
  end.
Definition split_env_id (id : string) : list string := firstn 3 (split_dash id).
Definition id_part (i : nat) (id : string) : res string :=
  match nth_error (split_env_id id) i with Some s => Ok s | None => Err IndexError end.
Definition action_type (id : string) : res string := id_part 0 id.
Definition control_task (id : string) : res string := id_part 1 id.
Definition motor_type (id : string) : res string := id_part 2 id.
(** [action_type, _, motor_type = split_env_id(env_id)]: the motor type; ValueError unless there are three parts. *)
Definition unpack_motor (id : string) : res string :=
  match split_env_id id with [_; _; m] => Ok m | _ => Err ValueError end.

(** ** What the controllers read from an environment: [state_names], [limits],
    [observation_space[0].low], [.high], [reference_names], [physical_system.tau],
    [electrical_motor.motor_parameter], [mechanical_load.j_total], [action_space], whether
    the converter is a FiniteB6BridgeConverter, and [converter.dead_time] (None: no such attribute). *)
Record cenv := {
  ce_names : list string; ce_limits : list R; ce_low : list R; ce_high : list R; ce_refs : list string;
  ce_tau : R; ce_par : dict R; ce_j : R; ce_act : aspace; ce_b6 : bool; ce_dead : option bool }.
(** [[env.state_names.index(name) for name in names]] *)
Fixpoint indices (e : cenv) (names : list string) : res (list nat) :=
  match names with
  | [] => Ok []
  | n :: ns => do i <- str_index n (ce_names e); do is <- indices e ns; Ok (i :: is)
  end.
(** [low[idx] * limits[idx]*(1-margin), high[idx] * limits[idx]*(1-margin)] *)
Definition ranges (e : cenv) (idx : list nat) (margin : R) : res (list R * list R) :=
  do l <- select idx (ce_limits e);
  let lim := map (fun x => x * (1 - margin)) l in
  do lo <- select idx (ce_low e); do hi <- select idx (ce_high e);
  do lo' <- np_bin Rmult lo lim; do hi' <- np_bin Rmult hi lim; Ok (lo', hi').

(** ** parameter_reader.py *)
(** 5-8 *)
Definition dc_motors : list string := ["SeriesDc"; "ShuntDc"; "PermExDc"; "ExtExDc"].
Definition induction_motors : list string := ["DFIM"; "SCIM"].
Definition ac_motors : list string := ["PMSM"; "SynRM"; "EESM"] ++ induction_motors.
(** 341-350 *)
Definition currents : dict (list string) :=
  [("SeriesDc", ["i"]); ("ShuntDc", ["i_a"]); ("ExtExDc", ["i_a"; "i_e"]); ("PermExDc", ["i"]); ("PMSM", ["i_sd"; "i_sq"]);
   ("SynRM", ["i_sd"; "i_sq"]); ("SCIM", ["i_sd"; "i_sq"]); ("EESM", ["i_sd"; "i_sq"; "i_e"])].
(** 351-360 *)
Definition emf_currents : dict (list string) :=
  [("SeriesDc", ["i"]); ("ShuntDc", ["i_e"]); ("ExtExDc", ["i_e"; "i_a"]); ("PermExDc", ["i"]); ("PMSM", ["i_sq"; "i_sd"]);
   ("SynRM", ["i_sq"; "i_sd"]); ("SCIM", ["i_sq"; "i_sd"]); ("EESM", ["i_sq"; "i_sd"; "i_sq"])].
(** 363-372 *)
Definition voltages : dict (list string) :=
  [("SeriesDc", ["u"]); ("ShuntDc", ["u"]); ("ExtExDc", ["u_a"; "u_e"]); ("PermExDc", ["u"]); ("PMSM", ["u_sd"; "u_sq"]);
   ("SynRM", ["u_sd"; "u_sq"]); ("SCIM", ["u_sd"; "u_sq"]); ("EESM", ["u_sd"; "u_sq"; "u_e"])].
(** get_output_voltages, 375-387; the action type is not looked at *)
Definition get_output_voltages (m : string) : res (list string) :=
  if str_in m dc_motors then dict_item m voltages
  else if str_in m induction_motors then Ok ["u_sa"; "u_sb"; "u_sc"]
  else if String.eqb m "EESM" then Ok ["u_a"; "u_b"; "u_c"; "u_sup"]
  else Ok ["u_a"; "u_b"; "u_c"].
(** A reader: from [motor_parameter] to an array. *)
Definition reader := dict R -> res (list R).
Definition par (k : string) : dict R -> res R := dict_item k.
Definition one (f : dict R -> res R) : reader := fun d => do x <- f d; Ok [x].
Definition two (f g : dict R -> res R) : reader := fun d => do x <- f d; do y <- g d; Ok [x; y].
Definition three (f g h : dict R -> res R) : reader := fun d => do x <- f d; do y <- g d; do z <- h d; Ok [x; y; z].
Definition num (r : R) : dict R -> res R := fun _ => Ok r.
Definition op1 (f : R -> R) (a : dict R -> res R) : dict R -> res R := fun d => do x <- a d; Ok (f x).
Definition op2 (f : R -> R -> R) (a b : dict R -> res R) : dict R -> res R := fun d => do x <- a d; do y <- b d; Ok (f x y).
(** 15-24 *)
Definition psi_reader : dict reader :=
  [("SeriesDc", one (num 0)); ("ShuntDc", one (num 0)); ("PermExDc", one (par "psi_e")); ("ExtExDc", two (num 0) (num 0));
   ("PMSM", two (num 0) (par "psi_p")); ("SynRM", two (num 0) (num 0)); ("SCIM", two (num 0) (num 0)); ("EESM", three (num 0) (num 0) (num 0))].
(** 26-35 *)
Definition p_reader : dict (dict R -> res R) :=
  [("SeriesDc", num 1); ("ShuntDc", num 1); ("ExtExDc", num 0); ("PermExDc", num 0); ("PMSM", par "p"); ("SynRM", par "p"); ("SCIM", par "p"); ("EESM", par "p")].
(** 37-93 *)
Definition l_r_over_r : dict R -> res R := op2 Rdiv (op2 Rplus (par "l_sigr") (par "l_m")) (par "r_r").
Definition l_reader : dict reader :=
  [("SeriesDc", one (op2 Rplus (par "l_a") (par "l_e"))); ("ShuntDc", one (par "l_a")); ("ExtExDc", two (par "l_a") (par "l_e"));
   ("PermExDc", one (par "l_a")); ("PMSM", two (par "l_d") (par "l_q")); ("SynRM", two (par "l_d") (par "l_q"));
   ("SCIM", two l_r_over_r l_r_over_r); ("EESM", three (par "l_d") (par "l_q") (par "l_e"))].
(** 95-153 *)
Definition l_sigma : dict R -> res R :=
  op2 Rdiv (op2 Rplus (op2 Rplus (op2 Rmult (par "l_sigs") (par "l_sigr")) (op2 Rmult (par "l_sigs") (par "l_m"))) (op2 Rmult (par "l_sigr") (par "l_m")))
           (op2 Rplus (par "l_sigr") (par "l_m")).
Definition l_emf_reader : dict reader :=
  [("SeriesDc", one (par "l_e_prime")); ("ShuntDc", one (par "l_e_prime")); ("ExtExDc", two (par "l_e_prime") (num 0)); ("PermExDc", one (num 0));
   ("PMSM", two (op1 Ropp (par "l_q")) (par "l_d")); ("SynRM", two (op1 Ropp (par "l_q")) (par "l_d"));
   ("SCIM", two (op1 Ropp l_sigma) l_sigma);
   ("EESM", three (op1 Ropp (par "l_q")) (par "l_d") (op2 Rdiv (op2 Rmult (par "l_m") (par "l_q")) (par "l_d")))].
(** 155-220; the array of PermExDc has dimension 0, see [tau_loop_iterable] *)
Definition tau_current_loop_reader : dict reader :=
  [("SeriesDc", one (op2 Rdiv (op2 Rplus (par "l_e") (par "l_a")) (op2 Rplus (par "r_e") (par "r_a"))));
   ("ShuntDc", one (op2 Rdiv (par "l_a") (par "r_a")));
   ("ExtExDc", two (op2 Rdiv (par "l_a") (par "r_a")) (op2 Rdiv (par "l_e") (par "r_e")));
   ("PermExDc", one (op2 Rdiv (par "l_a") (par "r_a")));
   ("PMSM", two (op2 Rdiv (par "l_q") (par "r_s")) (op2 Rdiv (par "l_d") (par "r_s")));
   ("SynRM", two (op2 Rdiv (par "l_q") (par "r_s")) (op2 Rdiv (par "l_d") (par "r_s")));
   ("SCIM", two (op2 Rdiv (par "l_sigs") (par "r_s")) (op2 Rdiv (par "l_sigr") (par "r_r")));
   ("EESM", three (op2 Rdiv (par "l_q") (par "r_s")) (op2 Rdiv (par "l_d") (par "r_s")) (op2 Rdiv (par "l_e") (par "r_e")))].
(** [table[motor_type](env)] *)
Definition read (t : dict reader) (m : string) (e : cenv) : res (list R) := do f <- dict_item m t; f (ce_par e).

(** ** Control tasks: base_controllers/e_base_controller_task.py and the strings of the other stages *)
Inductive task := CC | TC | SC | FC.

(** ** Clipping stages *)
Inductive clip :=
| CAbs (lo hi : list R)                              (* absolute_clipping_stage.py *)
| CSq (lim : list R) (margin : R)                    (* squared_clipping_stage.py *)
| CComb (lim lo hi : list R) (margin : R).           (* combined_clipping_stage.py, squared states [0, 1], absolute state [2] *)
Record cstage := { cs_task : task; cs_clip : clip; cs_diff : list R }.
(** Constructors: absolute 23-30, squared 31-40, combined 27-34 (margin None before [tune]; 0 here). *)
Definition abs_new (t : task) : cstage := {| cs_task := t; cs_clip := CAbs [] []; cs_diff := [] |}.
Definition sq_new (t : task) : cstage := {| cs_task := t; cs_clip := CSq [] 0; cs_diff := [] |}.
Definition comb_new (t : task) : cstage := {| cs_task := t; cs_clip := CComb [] [] [] 0; cs_diff := [] |}.
(** The squared clipping of a vector, squared 54-60 and combined 38-44. *)
Definition sq_clip (lim : list R) (margin : R) (ref : list R) : res (list R) :=
  do rel <- np_bin Rdiv ref lim;
  let len2 := rsum (map (fun x => x * x) rel) in
  let rmax := 1 - margin in
  Ok (if rlt len2 (rmax * rmax) then ref else map (fun x => x / len2 * rmax) ref).
(** [__call__]: absolute 44-46, squared 54-62, combined 37-51. *)
Definition clipped (c : clip) (ref : list R) : res (list R) :=
  match c with
  | CAbs lo hi => np_clips ref lo hi
  | CSq lim margin => sq_clip lim margin ref
  | CComb lim lo hi margin =>
      do rs <- select [0; 1]%nat ref; do s <- sq_clip lim margin rs;
      do ra <- select [2]%nat ref; do a <- np_clips ra lo hi;
      Ok (s ++ a)
  end.
Definition clip_call (c : cstage) (ref : list R) : call cstage (list R) :=
  match clipped (cs_clip c) ref with
  | Err x => (c, Err x)
  | Ok y => match np_bin Rminus ref y with
            | Err x => (c, Err x)
            | Ok d => ({| cs_task := cs_task c; cs_clip := cs_clip c; cs_diff := d |}, Ok y)
            end
  end.
(** The names whose limits are used: absolute 58-66, squared 74-81 (no names for other tasks), combined 71-79. *)
Definition clip_names (c : cstage) (m : string) : res (list string) :=
  match cs_task c with
  | CC => dict_item m voltages
  | TC => dict_item m currents
  | SC => Ok ["torque"]
  | FC => match cs_clip c with CSq _ _ => Ok [] | _ => Err AttributeError end
  end.
(** [tune]: absolute 58-73, squared 74-83 (the margin is not stored), combined 67-90. *)
Definition clip_tune (c : cstage) (e : cenv) (id : string) (margin : R) : res cstage :=
  do m <- motor_type id; do names <- clip_names c m; do idx <- indices e names;
  match cs_clip c with
  | CAbs _ _ =>
      do r <- ranges e idx margin;
      Ok {| cs_task := cs_task c; cs_clip := CAbs (fst r) (snd r); cs_diff := repeat 0 (length (fst r)) |}
  | CSq _ m0 =>
      do l <- select idx (ce_limits e);
      Ok {| cs_task := cs_task c; cs_clip := CSq l m0; cs_diff := cs_diff c |}
  | CComb _ _ _ _ =>
      do r <- ranges e idx margin; do l <- select idx (ce_limits e);
      do lim <- select [0; 1]%nat (map (fun x => x * (1 - margin)) l);
      do lo <- select [2]%nat (fst r); do hi <- select [2]%nat (snd r);
      Ok {| cs_task := cs_task c; cs_clip := CComb lim lo hi margin; cs_diff := repeat 0 (length (fst r)) |}
  end.
(** [reset]: absolute 75-77, squared 85-87, combined 92-96. *)
Definition clip_reset (c : cstage) : cstage :=
  {| cs_task := cs_task c; cs_clip := cs_clip c;
     cs_diff := match cs_clip c with CAbs lo _ => repeat 0 (length lo) | CSq lim _ => repeat 0 (length lim) | CComb _ _ _ _ => repeat 0 3 end |}.
(** [action_range]: absolute 18-21, squared 26-29 (an empty list), combined 18-25. *)
Definition action_range (c : cstage) : res (list (list R)) :=
  match cs_clip c with
  | CAbs lo hi => Ok [lo; hi]
  | CSq _ _ => Ok []
  | CComb _ lo hi _ =>
      match lo, hi with
      | l :: _, h :: _ => Ok [[0; 0; l]; [0; 0; h]]
      | _, _ => Err IndexError
      end
  end.

(** ** AntiWindup, anti_windup.py *)
Record windup := { aw_task : task; aw_idx : list nat; aw_tau : R }.
(** 13-20 *)
Definition windup_new (t : task) : windup := {| aw_task := t; aw_idx := []; aw_tau := 0 |}.
(** [tune], 22-39 *)
Definition windup_tune (w : windup) (e : cenv) (id : string) : res windup :=
  do m <- motor_type id;
  do names <- match aw_task w with CC => dict_item m currents | TC => Ok ["torque"] | SC => Ok ["omega"] | FC => Ok [] end;
  do idx <- indices e names;
  Ok {| aw_task := aw_task w; aw_idx := idx; aw_tau := ce_tau e |}.
(** [__call__], 57-59 *)
Definition windup_call (w : windup) (state ref diff : list R) : res (list R) :=
  do s <- select (aw_idx w) state;
  do err <- np_bin Rminus ref s;
  np_bin Rmult (map (fun x => aw_tau w * x) err) (map (fun d => if req d 0 then 1 else 0) diff).

(** ** Base controllers, base_controllers/*.py *)
Inductive bkind := KP | KI | KPI | KPID | K3.
(** One record for all classes: [p_gain], [i_gain], [integrator], [tau] (None before tuning),
    state indices (None: the float array of the constructor, which cannot be used as an index),
    [d_gain], [last_error], and hysteresis, high, low, idle action of the three point controller. *)
Record base := {
  b_kind : bkind; b_task : task; b_p : list R; b_i : list R; b_int : list R; b_tau : option R; b_idx : option (list nat);
  b_d : list R; b_last : list R; b_hyst : list R; b_high : list R; b_low : list R; b_idle : list R }.
(** Constructors: p 54-64, i 61-73, pi 14-20, pid 19-26, three point 67-78. *)
Definition base_new (k : bkind) (t : task) : base :=
  {| b_kind := k; b_task := t; b_p := [0]; b_i := []; b_int := [0]; b_tau := None; b_idx := None;
     b_d := []; b_last := []; b_hyst := []; b_high := []; b_low := []; b_idle := [0] |}.
(** base_controllers/utils.py: [get(name)] *)
Definition base_get (name : string) : res bkind :=
  dict_item name [("P", KP); ("I", KI); ("PI", KPI); ("PID", KPID); ("ThreePoint", K3)].
(** [hasattr(base, "integrator")] *)
Definition has_integrator (b : base) : bool := match b_kind b with KI | KPI | KPID => true | _ => false end.
Definition base_set_int (b : base) (v : list R) : base :=
  {| b_kind := b_kind b; b_task := b_task b; b_p := b_p b; b_i := b_i b; b_int := v; b_tau := b_tau b; b_idx := b_idx b;
     b_d := b_d b; b_last := b_last b; b_hyst := b_hyst b; b_high := b_high b; b_low := b_low b; b_idle := b_idle b |}.
Definition base_set_last (b : base) (v : list R) : base :=
  {| b_kind := b_kind b; b_task := b_task b; b_p := b_p b; b_i := b_i b; b_int := b_int b; b_tau := b_tau b; b_idx := b_idx b;
     b_d := b_d b; b_last := v; b_hyst := b_hyst b; b_high := b_high b; b_low := b_low b; b_idle := b_idle b |}.
Definition base_states (b : base) (state : list R) : res (list R) :=
  match b_idx b with None => Err IndexError | Some idx => select idx state end.
(** PController._control, 66-68; IController._control, 88-90; PIController.control, 34-38 *)
Definition p_part (b : base) (s ref : list R) : res (list R) := do e <- np_bin Rminus ref s; np_bin Rmult (b_p b) e.
Definition i_part (b : base) : res (list R) := np_bin Rmult (b_i b) (b_int b).
Definition pi_control (b : base) (state ref : list R) : res (list R) :=
  do s <- base_states b state; do x <- p_part b s ref; do y <- i_part b; np_bin Rplus x y.
(** PIDController.control, 39-43: the derivative action *)
Definition d_part (b : base) (err : list R) : res (list R) :=
  do de <- np_bin Rminus err (b_last b); do x <- np_bin Rmult (b_d b) de;
  match b_tau b with None => Err TypeError | Some t => Ok (map (fun v => v / t) x) end.
(** ThreePointController.__call__, 91-94 *)
Definition three_point (b : base) (state ref : list R) : res (list R) :=
  do s <- base_states b state;
  do sh <- np_bin Rplus s (b_hyst b); do hi <- np_cmp rlt sh ref;
  do sl <- np_bin Rminus s (b_hyst b); do lo <- np_cmp (fun x y => rlt y x) sl ref;
  np_select lo hi (b_low b) (b_high b) (b_idle b).
(** [__call__]: p 52 and 70-81, i 86 and 103, pi, pid, three point *)
Definition base_call (b : base) (state ref : list R) : call base (list R) :=
  match b_kind b with
  | KP => (b, do s <- base_states b state; p_part b s ref)
  | KI => (b, do s <- base_states b state; i_part b)
  | KPI => (b, pi_control b state ref)
  | KPID =>
      match (do u <- pi_control b state ref; do s <- base_states b state; do err <- np_bin Rminus ref s;
             do d <- d_part b err; Ok (u, err, d)) with
      | Err x => (b, Err x)
      | Ok r => (base_set_last b (snd (fst r)), np_bin Rplus (fst (fst r)) (snd r))
      end
  | K3 => (b, three_point b state ref)
  end.
(** [reset]: i 117-121; the other classes inherit the empty [Stage.reset] *)
Definition base_reset (b : base) : base := if has_integrator b then base_set_int b (repeat 0 (length (b_i b))) else b.
(** The i_gain setter, i_controller.py 19-23 *)
Definition i_gain_set (v : list R) : list R := map (fun x => Rmax x 0) v.
Definition base_gains (b : base) (p i : list R) (tau : option R) (idx : list nat) : base :=
  {| b_kind := b_kind b; b_task := b_task b; b_p := p; b_i := i; b_int := b_int b; b_tau := tau; b_idx := Some idx;
     b_d := b_d b; b_last := b_last b; b_hyst := b_hyst b; b_high := b_high b; b_low := b_low b; b_idle := b_idle b |}.
(** PController._tune_current_controller, 110-124.  The action range is stored and never read. *)
Definition p_tune_current (b : base) (e : cenv) (id : string) (a : R) : res base :=
  do m <- unpack_motor id; do l <- read l_reader m e;
  do cs <- dict_item m currents; do us <- dict_item m voltages;
  do ui <- indices e us; do ci <- indices e cs; do rg <- ranges e ui 0;
  Ok (base_gains b (map (fun x => x / (ce_tau e * a)) l) (b_i b) (b_tau b) ci).
(** PController._tune_speed_controller, 137-149 *)
Definition p_tune_speed (b : base) (e : cenv) (a : R) (t_n : option R) : res base :=
  let t := match t_n with Some t => t | None => ce_tau e end in
  do ti <- str_index "torque" (ce_names e); do si <- str_index "omega" (ce_names e);
  do rg <- ranges e [ti] 0;
  Ok (base_gains b [ce_j e / (a * t)] (b_i b) (b_tau b) [si]).
(** PIController._tune_current_controller, 70-87 *)
Definition pi_tune_current (b : base) (e : cenv) (id : string) (a : R) : res base :=
  do b1 <- p_tune_current b e id a;
  Ok (base_gains b1 (b_p b1) (i_gain_set (map (fun x => x / (ce_tau e * (a * a))) (b_p b1))) (Some (ce_tau e))
                 (match b_idx b1 with Some i => i | None => [] end)).
(** PIController._tune_speed_controller, 100-104: [a * None] raises TypeError *)
Definition pi_tune_speed (b : base) (e : cenv) (a : R) (t_n : option R) : res base :=
  do b1 <- p_tune_speed b e a t_n;
  match t_n with
  | None => Err TypeError
  | Some t => Ok (base_gains b1 (b_p b1) (i_gain_set (map (fun x => x / (a * t)) (b_p b1))) (Some (ce_tau e))
                             (match b_idx b1 with Some i => i | None => [] end))
  end.
(** PIController._tune_flux_controller, 117-120 *)
Definition pi_tune_flux (b : base) (e : cenv) (a : R) (t_n : option R) : res base :=
  match t_n with
  | None => Err TypeError
  | Some t => Ok (base_gains b [a * (t * t)] (i_gain_set [a * (t * t) / ce_tau e]) (Some (ce_tau e)) [0%nat])
  end.
(** The d_gain setter and 54-55, 67-68 of pid_controller.py; [self.tau] is set by the PI part before *)
Definition pid_d_gain (b : base) : res base :=
  match b_tau b with
  | None => Err TypeError
  | Some t =>
      Ok {| b_kind := b_kind b; b_task := b_task b; b_p := b_p b; b_i := b_i b; b_int := b_int b; b_tau := b_tau b; b_idx := b_idx b;
            b_d := map (fun x => x * t) (b_p b); b_last := repeat 0 (length (b_p b)); b_hyst := b_hyst b; b_high := b_high b; b_low := b_low b; b_idle := b_idle b |}
  end.
(** PIController.tune, 51-58, with the overrides of PIDController 45-68 (which drops [t_n]) *)
Definition pi_tune (b : base) (e : cenv) (id : string) (a : R) (t_n : option R) : res base :=
  let pid := match b_kind b with KPID => true | _ => false end in
  match b_task b with
  | CC => do b1 <- pi_tune_current b e id a; if pid then pid_d_gain b1 else Ok b1
  | SC => if pid then do b1 <- pi_tune_speed b e a None; pid_d_gain b1 else pi_tune_speed b e a t_n
  | FC => pi_tune_flux b e a t_n
  | TC => Err PlainException
  end.
(** ThreePointController.tune, 105-161 *)
Definition three_set (b : base) (idx : list nat) (r : list R * list R) (h : list R) : base :=
  {| b_kind := b_kind b; b_task := b_task b; b_p := b_p b; b_i := b_i b; b_int := b_int b; b_tau := b_tau b; b_idx := Some idx;
     b_d := b_d b; b_last := b_last b; b_hyst := h; b_high := snd r; b_low := fst r; b_idle := repeat 0 (length (snd r)) |}.
Definition three_tune (b : base) (e : cenv) (id : string) : res base :=
  match b_task b with
  | SC =>
      do ti <- str_index "reference" (ce_names e); do r <- ranges e [ti] 0;
      do d <- np_bin Rminus (snd r) (fst r); Ok (three_set b [ti] r (map (fun x => 1 / 100 * x) d))
  | CC =>
      do m <- motor_type id; do us <- dict_item m voltages; do cs <- dict_item m currents;
      do ui <- indices e us; do ci <- indices e cs; do r <- ranges e ui 0;
      do d <- np_bin Rminus (snd r) (fst r); Ok (three_set b ci r (map (fun x => 1 / 100 * x) d))
  | _ => Err PlainException
  end.
(** PController.tune, 93-98 *)
Definition p_tune (b : base) (e : cenv) (id : string) (a : R) : res base :=
  match b_task b with
  | CC => p_tune_current b e id a
  | SC => p_tune_speed b e a None
  | _ => Err PlainException
  end.
(** [tune(env, env_id, a)] with a third positional argument: BaseController.tune and
    ThreePointController.tune only accept keywords there (base 33, three point 96). *)
Definition base_tune_pos (b : base) (e : cenv) (id : string) (a : R) : res base :=
  match b_kind b with
  | KP => p_tune b e id a
  | KPI | KPID => pi_tune b e id a None
  | KI | K3 => Err TypeError
  end.
(** [tune(env, env_id, t_n=t_n, a=a)]: PController.tune has no parameter [t_n] (p 83). *)
Definition base_tune_kw (b : base) (e : cenv) (id : string) (t_n a : R) : res base :=
  match b_kind b with
  | KP => Err TypeError
  | KI => Ok b
  | KPI | KPID => pi_tune b e id a (Some t_n)
  | K3 => three_tune b e id
  end.

(** ** EMF feed-forward, emf_feedforward.py, emf_feedforward_eesm.py, emf_feedforward_ind.py *)
Inductive ekind := EPlain | EEesm | EInd.
(** [ef_eesm]: l_m, position of i_e, decoupling_params, action_decoupling, currents_idx; [ef_ind]: r_r, l_m, l_r, positions of i_sq and psi_abs *)
Record emf := {
  ef_kind : ekind; ef_p : R; ef_l : list R; ef_psi : list R; ef_cur : list nat; ef_om : nat;
  ef_lm : R; ef_ie : nat; ef_dec : list R; ef_act : list R; ef_cidx : list nat;
  ef_rr : R; ef_lr : R; ef_isq : nat; ef_abs : nat }.
(** 65-72 and the subclasses; omega_idx is None there, the stage is only called after [tune] *)
Definition emf_new (k : ekind) : emf :=
  {| ef_kind := k; ef_p := 1; ef_l := []; ef_psi := []; ef_cur := []; ef_om := 0; ef_lm := 0; ef_ie := 0; ef_dec := []; ef_act := [];
     ef_cidx := []; ef_rr := 0; ef_lr := 0; ef_isq := 0; ef_abs := 0 |}.
(** EMFFeedforward.tune, 97-111 *)
Definition emf_tune_base (f : emf) (e : cenv) (id : string) : res emf :=
  do m <- motor_type id; do om <- str_index "omega" (ce_names e);
  do names <- dict_item m emf_currents; do cur <- indices e names;
  do l <- read l_emf_reader m e; do psi <- read psi_reader m e;
  do pr <- dict_item m p_reader; do p <- pr (ce_par e);
  do us <- dict_item m voltages; do ui <- indices e us; do rg <- ranges e ui 0;
  Ok {| ef_kind := ef_kind f; ef_p := p; ef_l := l; ef_psi := psi; ef_cur := cur; ef_om := om; ef_lm := ef_lm f; ef_ie := ef_ie f; ef_dec := ef_dec f;
        ef_act := ef_act f; ef_cidx := ef_cidx f; ef_rr := ef_rr f; ef_lr := ef_lr f; ef_isq := ef_isq f; ef_abs := ef_abs f |}.
(** EMFFeedforwardEESM.tune, 47-59; EMFFeedforwardInd.tune, 56-62 *)
Definition emf_tune (f : emf) (e : cenv) (id : string) : res emf :=
  do g <- emf_tune_base f e id;
  match ef_kind f with
  | EPlain => Ok g
  | EEesm =>
      do lm <- par "l_m" (ce_par e); do ld <- par "l_d" (ce_par e); do le <- par "l_e" (ce_par e);
      do rs <- par "r_s" (ce_par e); do re <- par "r_e" (ce_par e);
      do ie <- str_index "i_e" (ce_names e); do isd <- str_index "i_sd" (ce_names e);
      Ok {| ef_kind := ef_kind g; ef_p := ef_p g; ef_l := ef_l g; ef_psi := ef_psi g; ef_cur := ef_cur g; ef_om := ef_om g;
            ef_lm := lm; ef_ie := ie; ef_dec := [- lm * re / le; 0; - lm * rs / ld]; ef_act := [lm / le; 0; lm / ld];
            ef_cidx := [ie; 0%nat; isd]; ef_rr := ef_rr g; ef_lr := ef_lr g; ef_isq := ef_isq g; ef_abs := ef_abs g |}
  | EInd =>
      do rr <- par "r_r" (ce_par e); do lm <- par "l_m" (ce_par e); do ls <- par "l_sigr" (ce_par e);
      do isq <- str_index "i_sq" (ce_names e); do ab <- str_index "psi_abs" (ce_names e);
      Ok {| ef_kind := ef_kind g; ef_p := ef_p g; ef_l := ef_l g; ef_psi := ef_psi g; ef_cur := ef_cur g; ef_om := ef_om g;
            ef_lm := lm; ef_ie := ef_ie g; ef_dec := ef_dec g; ef_act := ef_act g; ef_cidx := ef_cidx g;
            ef_rr := rr; ef_lr := ls + lm; ef_isq := isq; ef_abs := ab |}
  end.
(** EMFFeedforward.__call__, 85 *)
Definition emf_plain (f : emf) (psi : list R) (state ref : list R) : res (list R) :=
  do cur <- select (ef_cur f) state; do w <- item state (ef_om f);
  do x <- np_bin Rmult (ef_l f) cur; do y <- np_bin Rplus x psi;
  np_bin Rplus ref (map (fun v => v * (w * ef_p f)) y).
(** [__call__]: EESM 32-36, induction motor 33-45 *)
Definition emf_call (f : emf) (state ref : list R) : res (list R) :=
  match ef_kind f with
  | EPlain => emf_plain f (ef_psi f) state ref
  | EEesm =>
      do ie <- item state (ef_ie f);
      do act <- emf_plain f [0; ef_lm f * ie; 0] state ref;
      do cur <- select (ef_cidx f) state; do x <- np_bin Rmult (ef_dec f) cur;
      do act2 <- np_bin Rplus act x;
      do perm <- select [2; 1; 0]%nat act2; do y <- np_bin Rmult (ef_act f) perm;
      np_bin Rplus act2 y
  | EInd =>
      do w <- item state (ef_om f); do isq <- item state (ef_isq f); do ab <- item state (ef_abs f);
      let ws := w + ef_rr f * ef_lm f / ef_lr f * isq / Rmax (Rabs ab) (1 / 10000) * np_sign ab in
      do cur <- select (ef_cur f) state; do x <- np_bin Rmult (map (fun l => ws * l) (ef_l f)) cur;
      do y <- np_bin Rplus ref x;
      np_bin Rplus y (map (fun v => v * ab) [- ef_lm f * ef_rr f / (ef_lr f * ef_lr f); w * ef_lm f / ef_lr f])
  end.

(** ** AbcTransformation, abc_transformation.py *)
Record abc := { ab_tau : R; ab_adv : R; ab_angle : nat; ab_om : nat; ab_len : nat }.
(** 34-40: [tau] is 1e-4 and no code changes it; the indices are None before [tune] *)
Definition abc_new : abc := {| ab_tau := 1 / 10000; ab_adv := 1 / 2; ab_angle := 0; ab_om := 0; ab_len := 0 |}.
(** [tune], 63-81 *)
Definition abc_tune (t : abc) (e : cenv) (id : string) : res abc :=
  do m <- motor_type id;
  do ang <- str_index (if str_in m induction_motors then "psi_angle" else "epsilon") (ce_names e);
  do om <- str_index "omega" (ce_names e);
  do m' <- unpack_motor id; do us <- get_output_voltages m';
  Ok {| ab_tau := ab_tau t; ab_adv := match ce_dead e with Some true => 3 / 2 | _ => 1 / 2 end; ab_angle := ang; ab_om := om; ab_len := length us |}.
(** [__call__], 52-61.  [output[3:] = reference[2:]]: equal lengths or one element. *)
Definition abc_call (t : abc) (state ref : list R) : res (list R) :=
  do eps <- item state (ab_angle t); do w <- item state (ab_om t);
  do ab <- q (firstn 2 ref) (eps + ab_adv t * ab_tau t * w);
  do out <- t_32 ab;
  if Nat.ltb 3 (ab_len t) then do rest <- np_bc (ab_len t - 3) (skipn 2 ref); Ok (out ++ rest) else Ok out.

(** ** Output stages *)
(** ContOutputStage, cont_output_stage.py 25-40: tuned limits and call *)
Definition cont_tune (e : cenv) (id : string) : res (list R) :=
  do m <- unpack_motor id; do us <- get_output_voltages m; do ui <- indices e us; select ui (ce_limits e).
Definition cont_call (lim ref : list R) : res (list R) := np_bin Rdiv ref lim.
(** DiscOutputStage, disc_output_stage.py *)
Inductive dkind := DNone | DB6 | DMulti | DSingle.
Record disc := { do_lo : list R; do_hi : list R; do_low : list Z; do_idle : list Z; do_high : list Z; do_kind : dkind }.
(** 27-34 *)
Definition disc_new : disc := {| do_lo := [0]; do_hi := [0]; do_low := [0%Z]; do_idle := [0%Z]; do_high := [0%Z]; do_kind := DNone |}.
(** [_get_actions], 132-140: low, idle, high *)
Definition get_actions (n : Z) : Z * Z * Z := ((if Z.eqb n 2 then 0 else 2)%Z, 0%Z, 1%Z).
(** [tune], 97-130 *)
Definition disc_tune (e : cenv) (id : string) : res disc :=
  do m <- unpack_motor id; do us <- get_output_voltages m; do ui <- indices e us; do r <- ranges e ui 0;
  do d <- np_bin Rminus (snd r) (fst r);
  let lo := map (fun x => - (33 / 100) * x) d in
  let hi := map (fun x => 33 / 100 * x) d in
  match ce_act e with
  | SMulti nvec =>
      Ok {| do_lo := lo; do_hi := hi; do_low := map (fun n => fst (fst (get_actions n))) nvec; do_idle := map (fun n => snd (fst (get_actions n))) nvec;
            do_high := map (fun n => snd (get_actions n)) nvec; do_kind := DMulti |}
  | SDisc n =>
      if ce_b6 e then Ok {| do_lo := lo; do_hi := hi; do_low := [0%Z]; do_idle := [0%Z]; do_high := [0%Z]; do_kind := DB6 |}
      else let '(l, i, h) := get_actions n in Ok {| do_lo := lo; do_hi := hi; do_low := [l]; do_idle := [i]; do_high := [h]; do_kind := DSingle |}
  | _ => if ce_b6 e then Ok {| do_lo := lo; do_hi := hi; do_low := [0%Z]; do_idle := [0%Z]; do_high := [0%Z]; do_kind := DB6 |} else Err PlainException
  end.
(** [to_action], 85-86, and [__call__], 47, with the output functions 49-72 and utils.py 6-7 *)
Definition to_action (d : disc) (ref : list R) : res (list Z) :=
  do lo <- np_cmp rle ref (do_lo d); do hi <- np_cmp (fun x y => rle y x) ref (do_hi d);
  np_select lo hi (do_low d) (do_high d) (do_idle d).
Definition disc_call (d : disc) (ref : list R) : res action :=
  do a <- to_action d ref;
  match do_kind d with
  | DNone => Err PlainException
  | DB6 => Err NotImplementedError
  | DMulti => Ok (AMulti a)
  | DSingle => match a with x :: _ => Ok (ADisc x) | [] => Err IndexError end
  end.
