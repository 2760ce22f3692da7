(** Model of the controllers built from the stages: src/gem_controllers/pi_current_controller.py,
    torque_controller.py, pi_speed_controller.py, gem_adapter.py, gem_controller.py.

    The operation point selection of the torque controller is an arbitrary stage with state
    [O]; the concrete ones are in Ops_Model. *)
From Verif Require Import PyBase PyDict Transform_Model Conv_Model Wrap_Model Ctl_Model.
Local Open Scope string_scope.
Local Open Scope list_scope.
Local Open Scope R_scope.

(** ** PICurrentController *)
Record cctl := {
  cc_base : base; cc_dec : bool; cc_emf : emf; cc_req : bool; cc_abc : abc; cc_clip : cstage; cc_aw : windup;
  cc_volt : list R; cc_loop : list R }.
(** 82-119 *)
Definition cc_new (id name : string) (dec : bool) : res cctl :=
  do m <- motor_type id; do k <- base_get name;
  Ok {| cc_base := base_new k CC; cc_dec := dec;
        cc_emf := emf_new (if str_in m induction_motors then EInd else if String.eqb m "EESM" then EEesm else EPlain);
        cc_req := false; cc_abc := abc_new;
        cc_clip := if String.eqb m "EESM" then comb_new CC else if str_in m ac_motors then sq_new CC else abs_new CC;
        cc_aw := windup_new CC; cc_volt := []; cc_loop := [0] |}.
(** [tune], 131-144 *)
Definition cc_tune (c : cctl) (e : cenv) (id : string) (a : R) : res cctl :=
  do at_ <- action_type id; do m <- motor_type id;
  let req := cc_req c || (str_in at_ ["Finite"; "Cont"] && str_in m ac_motors) in
  do ab <- (if req then abc_tune (cc_abc c) e id else Ok (cc_abc c));
  do ef <- emf_tune (cc_emf c) e id;
  do b <- base_tune_pos (cc_base c) e id a;
  do w <- windup_tune (cc_aw c) e id;
  do cl <- clip_tune (cc_clip c) e id 0;
  do us <- dict_item m voltages;
  do loop <- read tau_current_loop_reader m e;
  Ok {| cc_base := b; cc_dec := cc_dec c; cc_emf := ef; cc_req := req; cc_abc := ab; cc_clip := cl; cc_aw := w;
        cc_volt := repeat 0 (length us); cc_loop := loop |}.
Definition cc_upd (c : cctl) (b : base) (cl : cstage) (v : list R) : cctl :=
  {| cc_base := b; cc_dec := cc_dec c; cc_emf := cc_emf c; cc_req := cc_req c; cc_abc := cc_abc c; cc_clip := cl; cc_aw := cc_aw c;
     cc_volt := v; cc_loop := cc_loop c |}.
(** [current_control], 159-177 *)
Definition current_control (c : cctl) (state ref : list R) : call cctl (list R) :=
  let (b, u0) := base_call (cc_base c) state ref in
  match (do u <- u0; if cc_dec c then emf_call (cc_emf c) state u else Ok u) with
  | Err x => (cc_upd c b (cc_clip c) (cc_volt c), Err x)
  | Ok u =>
      let (cl, v0) := clip_call (cc_clip c) u in
      match v0 with
      | Err x => (cc_upd c b cl (cc_volt c), Err x)
      | Ok v =>
          match (if cc_req c then abc_call (cc_abc c) state u else Ok u) with
          | Err x => (cc_upd c b cl v, Err x)
          | Ok out =>
              if has_integrator b then
                match (do d <- windup_call (cc_aw c) state ref (cs_diff cl); np_iadd (b_int b) d) with
                | Err x => (cc_upd c b cl v, Err x)
                | Ok z => (cc_upd c (base_set_int b z) cl v, Ok out)
                end
              else (cc_upd c b cl v, Ok out)
          end
      end
  end.
(** [control], 191-192 *)
Definition cc_control (c : cctl) (state ref : list R) : call cctl (list R) :=
  let (c1, r) := current_control c state ref in
  match r with
  | Err x => (c1, Err x)
  | Ok u => (cc_upd c1 (cc_base c1) (cc_clip c1) u, Ok u)
  end.
(** [reset], 194-197: of the stages 39-48 only base controllers and clipping stages have something to reset *)
Definition cc_reset (c : cctl) : cctl := cc_upd c (base_reset (cc_base c)) (clip_reset (cc_clip c)) (cc_volt c).
(** [t_n], 60-66 *)
Definition cc_t_n (c : cctl) : res (list R) :=
  match b_kind (cc_base c) with
  | KPI | KPID => np_bin Rdiv (b_p (cc_base c)) (b_i (cc_base c))
  | _ => Ok (cc_loop c)
  end.

Section Cascade.
Context {O : Type}.
(** Operation point selection: [__call__(state, reference)], [tune(env, env_id, margin)], [reset()] *)
Record ops := { o_call : O -> list R -> list R -> call O (list R); o_tune : O -> cenv -> string -> R -> res O; o_reset : O -> O }.
Variable op : ops.

(** ** TorqueController *)
Record tctl := { tc_cc : cctl; tc_ops : O; tc_clip : cstage; tc_ref : list R; tc_cur : list string; tc_max : dict (list R) }.
(** 81-98, called by [make] with a current controller and no other stages *)
Definition tc_new (cc : cctl) (o : O) (id : string) : res tctl :=
  do m <- motor_type id;
  Ok {| tc_cc := cc; tc_ops := o;
        tc_clip := if str_in m dc_motors then abs_new TC else if String.eqb m "EESM" then comb_new TC else sq_new TC;
        tc_ref := []; tc_cur := []; tc_max := [] |}.
(** [l[i]] of the list of ranges *)
Definition range_at (l : list (list R)) (i : nat) : res (list R) := match nth_error l i with Some x => Ok x | None => Err IndexError end.
(** [tune], 111-120 *)
Definition tc_tune (c : tctl) (e : cenv) (id : string) (margin a : R) : res tctl :=
  do cc <- cc_tune (tc_cc c) e id a;
  do cl <- clip_tune (tc_clip c) e id margin;
  do o <- o_tune op (tc_ops c) e id margin;
  do m <- motor_type id; do cur <- dict_item m currents;
  do rg <- action_range cl; do lo <- range_at rg 0; do rg' <- action_range cl; do hi <- range_at rg' 1;
  Ok {| tc_cc := cc; tc_ops := o; tc_clip := cl; tc_ref := tc_ref c; tc_cur := cur;
        tc_max := dict_update (tc_max c)
          (filter (fun kv => str_in (fst kv) ["i"; "i_a"; "i_e"]) (map2 (fun n lh => (n, [fst lh; snd lh])) cur (combine lo hi))) |}.
Definition tc_upd (c : tctl) (cc : cctl) (o : O) (cl : cstage) (r : list R) : tctl :=
  {| tc_cc := cc; tc_ops := o; tc_clip := cl; tc_ref := r; tc_cur := tc_cur c; tc_max := tc_max c |}.
(** [control], 149-158, with [torque_control], 134-135 *)
Definition tc_control (c : tctl) (state ref : list R) : call tctl (list R) :=
  let (o, i0) := o_call op (tc_ops c) state ref in
  match i0 with
  | Err x => (tc_upd c (tc_cc c) o (tc_clip c) (tc_ref c), Err x)
  | Ok i =>
      let (cl, j0) := clip_call (tc_clip c) i in
      match j0 with
      | Err x => (tc_upd c (tc_cc c) o cl i, Err x)
      | Ok j => let (cc, u) := current_control (tc_cc c) state j in (tc_upd c cc o cl j, u)
      end
  end.
(** [reset], 160-164 *)
Definition tc_reset (c : tctl) : tctl := tc_upd c (cc_reset (tc_cc c)) (o_reset op (tc_ops c)) (clip_reset (tc_clip c)) (tc_ref c).

(** ** PISpeedController *)
Record sctl := { sc_base : base; sc_tc : tctl; sc_ref : list R; sc_aw : windup; sc_clip : cstage }.
(** 77-84 *)
Definition sc_new (tc : tctl) (name : string) : res sctl :=
  do k <- base_get name;
  Ok {| sc_base := base_new k SC; sc_tc := tc; sc_ref := []; sc_aw := windup_new SC; sc_clip := abs_new SC |}.
(** [min(array)]: ValueError if empty *)
Definition py_min (l : list R) : res R := match l with [] => Err ValueError | x :: l' => Ok (fold_left Rmin l' x) end.
(** [min(self._torque_controller.t_n)]: without p and i gain this is the time constant of the
    current loop, an array of dimension 0 for PermExDc (parameter_reader.py 182-185), which cannot be iterated *)
Definition min_t_n (c : cctl) (m : string) : res R :=
  do l <- cc_t_n c;
  match b_kind (cc_base c) with
  | KPI | KPID => py_min l
  | _ => if String.eqb m "PermExDc" then Err TypeError else py_min l
  end.
(** [tune], 97-102 *)
Definition sc_tune (c : sctl) (e : cenv) (id : string) (margin a : R) : res sctl :=
  do tc <- tc_tune (sc_tc c) e id margin a;
  do w <- windup_tune (sc_aw c) e id;
  do cl <- clip_tune (sc_clip c) e id 0;
  do m <- motor_type id; do tn <- min_t_n (tc_cc tc) m;
  do b <- base_tune_kw (sc_base c) e id tn a;
  Ok {| sc_base := b; sc_tc := tc; sc_ref := sc_ref c; sc_aw := w; sc_clip := cl |}.
Definition sc_upd (c : sctl) (b : base) (tc : tctl) (r : list R) (cl : cstage) : sctl :=
  {| sc_base := b; sc_tc := tc; sc_ref := r; sc_aw := sc_aw c; sc_clip := cl |}.
(** [speed_control], 116-125 *)
Definition speed_control (c : sctl) (state ref : list R) : call sctl (list R) :=
  let (b, t0) := base_call (sc_base c) state ref in
  match t0 with
  | Err x => (sc_upd c b (sc_tc c) (sc_ref c) (sc_clip c), Err x)
  | Ok t =>
      let (cl, v0) := clip_call (sc_clip c) t in
      match v0 with
      | Err x => (sc_upd c b (sc_tc c) (sc_ref c) cl, Err x)
      | Ok v =>
          if has_integrator b then
            match (do d <- windup_call (sc_aw c) state ref (cs_diff cl); np_iadd (b_int b) d) with
            | Err x => (sc_upd c b (sc_tc c) v cl, Err x)
            | Ok z => (sc_upd c (base_set_int b z) (sc_tc c) v cl, Ok v)
            end
          else (sc_upd c b (sc_tc c) v cl, Ok v)
      end
  end.
(** [control], 139-145 *)
Definition sc_control (c : sctl) (state ref : list R) : call sctl (list R) :=
  let (c1, t0) := speed_control c state ref in
  match t0 with
  | Err x => (c1, Err x)
  | Ok t => let (tc, u) := tc_control (sc_tc c1) state t in (sc_upd c1 (sc_base c1) tc (sc_ref c1) (sc_clip c1), u)
  end.
(** [reset], 147-150 *)
Definition sc_reset (c : sctl) : sctl := sc_upd c (base_reset (sc_base c)) (tc_reset (sc_tc c)) (sc_ref c) (sc_clip c).

(** ** GymElectricMotorAdapter and GemController.make *)
Inductive inner := ICur (c : cctl) | ITor (c : tctl) | ISpd (c : sctl).
Definition inner_control (k : inner) (state ref : list R) : call inner (list R) :=
  match k with
  | ICur c => let (c', r) := cc_control c state ref in (ICur c', r)
  | ITor c => let (c', r) := tc_control c state ref in (ITor c', r)
  | ISpd c => let (c', r) := sc_control c state ref in (ISpd c', r)
  end.
Definition inner_reset (k : inner) : inner :=
  match k with ICur c => ICur (cc_reset c) | ITor c => ITor (tc_reset c) | ISpd c => ISpd (sc_reset c) end.
Definition inner_tune (k : inner) (e : cenv) (id : string) (margin a : R) : res inner :=
  match k with
  | ICur c => do c' <- cc_tune c e id a; Ok (ICur c')
  | ITor c => do c' <- tc_tune c e id margin a; Ok (ITor c')
  | ISpd c => do c' <- sc_tune c e id margin a; Ok (ISpd c')
  end.
Inductive outst := OCont (lim : list R) | ODisc (d : disc).
Record adapter := { ad_slim : list R; ad_rlim : list R; ad_out : outst; ad_in : inner }.
(** 56-68; InputStage constructor 27-30, ContOutputStage constructor 21-23 *)
Definition adapter_new (id : string) (k : inner) : res adapter :=
  do at_ <- action_type id;
  Ok {| ad_slim := []; ad_rlim := []; ad_out := if String.eqb at_ "Finite" then ODisc disc_new else OCont []; ad_in := k |}.
(** [tune], 107-110, with InputStage.tune 56-58; the reference plotter is not modelled *)
Definition adapter_tune (k : adapter) (e : cenv) (id : string) (margin a : R) : res adapter :=
  do ri <- indices e (ce_refs e); do rl <- select ri (ce_limits e);
  do o <- match ad_out k with OCont _ => do l <- cont_tune e id; Ok (OCont l) | ODisc _ => do d <- disc_tune e id; Ok (ODisc d) end;
  do c <- inner_tune (ad_in k) e id margin a;
  Ok {| ad_slim := ce_limits e; ad_rlim := rl; ad_out := o; ad_in := c |}.
(** GemController.make, 66-99, without plots and block diagram.  [new_ops]: the entry of
    [torque_to_current_function] for the motor type, ops_utils.py 9-18. *)
Definition gem_make (new_ops : string -> res O) (e : cenv) (id : string) (dec : bool) (margin : R) (bcur bspd : string) (a : R) : res adapter :=
  do t <- control_task id;
  do cc <- cc_new id bcur dec;
  do k <- (if str_in t ["TC"; "SC"] then
             do m <- motor_type id; do o <- new_ops m; do tc <- tc_new cc o id;
             if String.eqb t "SC" then do sc <- sc_new tc bspd; Ok (ISpd sc) else Ok (ITor tc)
           else Ok (ICur cc));
  do ad <- adapter_new id k;
  adapter_tune ad e id margin a.
(** [reset], 122-126; input and output stages have nothing to reset *)
Definition adapter_reset (k : adapter) : adapter :=
  {| ad_slim := ad_slim k; ad_rlim := ad_rlim k; ad_out := ad_out k; ad_in := inner_reset (ad_in k) |}.

(** [control], 82-95.  Arrays live in a memory, because InputStage.__call__ writes into the
    array it is given (input_stage.py 44). *)
Definition memory := list (list R).
Definition load (h : memory) (p : nat) : list R := nth p h [].
(** [np.copy] *)
Definition np_copy (h : memory) (p : nat) : memory * nat := (h ++ [load h p], length h).
(** InputStage.__call__, 44-45: memory afterwards and the denormalised reference *)
Definition input_call (slim rlim : list R) (h : memory) (ps pr : nat) : call memory (list R) :=
  match np_bin Rmult (load h ps) slim with
  | Err x => (h, Err x)
  | Ok s =>
      if Nat.eqb (length s) (length (load h ps)) then
        let h' := list_set ps s h in (h', np_bin Rmult (load h' pr) rlim)
      else (h, Err ValueError)
  end.
Definition out_call (o : outst) (u : list R) : res action :=
  match o with OCont lim => do a <- cont_call lim u; Ok (ABox a) | ODisc d => disc_call d u end.
Definition ad_upd (k : adapter) (c : inner) : adapter := {| ad_slim := ad_slim k; ad_rlim := ad_rlim k; ad_out := ad_out k; ad_in := c |}.
Definition adapter_control (k : adapter) (h : memory) (ps pr : nat) : call (adapter * memory) action :=
  let (h1, s') := np_copy h ps in
  let (h2, r') := np_copy h1 pr in
  let (h3, dr) := input_call (ad_slim k) (ad_rlim k) h2 s' r' in
  match dr with
  | Err x => ((k, h3), Err x)
  | Ok ref =>
      let (c, u0) := inner_control (ad_in k) (load h3 s') ref in
      ((ad_upd k c, h3), do u <- u0; out_call (ad_out k) u)
  end.
End Cascade.
Arguments ops : clear implicits.
Arguments tctl : clear implicits.
Arguments sctl : clear implicits.
Arguments inner : clear implicits.
Arguments adapter : clear implicits.

(** ** GemController.control_environment, gem_controller.py 144-173, without rendering and
    block diagram.  [E], [K]: states of environment and controller; observations are pairs
    of state and reference; the environment may end an episode by termination or truncation. *)
Inductive event (A : Type) := EvReset | EvCReset | EvStep (a : A).
Arguments EvReset {A}. Arguments EvCReset {A}. Arguments EvStep {A}.
Section Loop.
Context {E K X A : Type}.
Record cenviron := { v_reset : E -> call E X; v_step : E -> A -> call E (X * bool * bool) }.
Record controller := { k_control : K -> X -> call K A; k_reset : K -> K }.
Variables (env : cenviron) (ctl : controller).
(** [max_episode_length]: None is [np.inf]. *)
Definition long_enough (max : option Z) (len : Z) : bool := match max with None => false | Some m => Z.leb m len end.
(** 161-171: [n] iterations from the current states, observation and episode length; the
    events are returned in order. *)
Fixpoint iterate (max : option Z) (n : nat) (e : E) (k : K) (x : X) (len : Z) : call (E * K * list (event A)) unit :=
  match n with
  | O => ((e, k, []), Ok tt)
  | Datatypes.S n' =>
      let (k1, a0) := k_control ctl k x in
      match a0 with
      | Err err => ((e, k1, []), Err err)
      | Ok a =>
          let (e1, r0) := v_step env e a in
          match r0 with
          | Err err => ((e1, k1, [EvStep a]), Err err)
          | Ok (x1, term, trunc) =>
              if term || trunc || long_enough max len then
                let (e2, y0) := v_reset env e1 in
                match y0 with
                | Err err => ((e2, k1, [EvStep a; EvReset]), Err err)
                | Ok x2 =>
                    let '((e3, k3, l), r) := iterate max n' e2 (k_reset ctl k1) x2 1 in
                    ((e3, k3, EvStep a :: EvReset :: EvCReset :: l), r)
                end
              else
                let '((e3, k3, l), r) := iterate max n' e1 k1 x1 (len + 1) in
                ((e3, k3, EvStep a :: l), r)
          end
      end
  end.
(** 156-171 *)
Definition control_environment (n : nat) (max : option Z) (e : E) (k : K) : call (E * K * list (event A)) unit :=
  let (e1, x0) := v_reset env e in
  match x0 with
  | Err err => ((e1, k, [EvReset]), Err err)
  | Ok x =>
      let '((e2, k2, l), r) := iterate max n e1 (k_reset ctl k) x 0 in
      ((e2, k2, EvReset :: EvCReset :: l), r)
  end.
End Loop.
