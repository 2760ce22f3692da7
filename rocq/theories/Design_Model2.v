(** Model of [Controller.make(environment)] for three-phase motors, without given stages and
    with automatic gains: examples/classic_controllers/classic_controllers.py (line numbers
    below without a file name are of that file).  Simplifications as in Design_Model.v and
    Ex_Model3.v; in addition the entries "l_s" and "l_r" that 553-554 and 579-580 leave in the
    motor parameters are not kept. *)
From Verif Require Import Ops_Model.
From Verif Require Import PyBase PyDict Transform_Model PhysSys_Model Preset_Model Ex_Model Ex_Model2 Ex_Model3 Design_Model.
Local Open Scope string_scope.
Local Open Scope list_scope.
Local Open Scope R_scope.

(** The environment: what the controllers read (Ex_Model), the class of the physical system,
    the kind of the object (Design_Model), [j_total], the referenced states (118-133).
    [tp_complex]: whether numpy has [np.complex]; it was removed in version 1.24, and
    requirements.txt 2 allows versions before and after.  [tp_tables], [tp_grid]: what
    TorqueToCurrentConversion.__init__ (controllers/torque_to_current_conversion.py) does up to
    line 295 and from there on, arbitrary outcomes here. *)
Record tp := { tp_env : env; tp_sys : sys_class; tp_access : access; tp_j : R; tp_refs : list string;
               tp_complex : bool; tp_tables : res unit; tp_grid : res unit }.
Definition is_sync (s : sys_class) : bool := match s with SyncSys | EesmSys => true | _ => false end.
(** [type(environment.action_space) is Discrete] *)
Definition is_discrete (s : space) : bool := match s with SDisc _ => true | _ => false end.

(** ** [automated_controller_design], 221-297 *)
Definition plain (t : string) : stage := {| st_type := t; st_par := [] |}.
Definition tp_stages (disc speed : bool) : list (list stage) :=
  (if disc then [[plain "on_off"]; [plain "on_off"]; [plain "on_off"]] else [[plain "pi_controller"; plain "pi_controller"]]) ++
  (if speed then [[plain "pi_controller"]] else []).
(** The class of induction motors is asked from [environment.physical_system], 253-256 *)
Definition tp_design (d : tp) : res (string * list (list stage)) :=
  do _ <- (if is_sync (tp_sys d) then Ok tt else attribute (tp_access d));
  let n := if is_sync (tp_sys d) then ("foc_controller", "cascaded_foc_controller")
           else ("foc_rotor_flux_observer", "cascaded_foc_rotor_flux_observer") in
  let disc := is_discrete (en_space (tp_env d)) in
  if Ex_Model3.has "i_sq" (tp_refs d) || Ex_Model3.has "torque" (tp_refs d)
  then Ok (if Ex_Model3.has "i_sq" (tp_refs d) then fst n else snd n, tp_stages disc false)
  else if Ex_Model3.has "omega" (tp_refs d) then Ok (snd n, tp_stages disc true)
  else Err PlainException.

(** ** [automated_gain], 299-628 *)
(** 315-338 *)
Record tlims := { tl_omega : R; tl_isd : R; tl_isq : R; tl_usd : R; tl_usq : R; tl_torque : R }.
Definition state_lim (e : env) (n : string) : res R := do i <- str_index n (en_names e); item (en_limits e) i.
Definition tp_lims (d : tp) : res tlims :=
  let e := tp_env d in
  do w <- state_lim e "omega"; do _ <- attribute (tp_access d);
  do a <- state_lim e "i_sd"; do b <- state_lim e "i_sq"; do c <- state_lim e "u_sd"; do u <- state_lim e "u_sq"; do t <- state_lim e "torque";
  Ok {| tl_omega := w; tl_isd := a; tl_isq := b; tl_usd := c; tl_usq := u; tl_torque := t |}.
(** Proportional, integral and (for PID controllers) derivative gain of a stage *)
Definition all_gains (p i dg : R) (s : stage) : res stage :=
  do _ <- stage_class (st_type s);
  Ok (if is_pid s then set_default "d_gain" dg (pi_gains p i s) else pi_gains p i s).
(** The current controllers of synchronous motors, 473-491 and 502-520: the gains of the d
    stage and both stages *)
Definition sync_current (e : env) (m : tlims) (a : R) (sd sq : stage) : res ((R * R) * (stage * stage)) :=
  do ld <- dict_item "l_d" (en_mp e); do lq <- dict_item "l_q" (en_mp e);
  let k := 15 / 10 * en_tau e in
  let pd := ld / (k * a) / tl_usd m * tl_isd m in let id := pd / (k * (a * a)) in
  let pq := lq / (k * a) / tl_usq m * tl_isq m in let iq := pq / (k * (a * a)) in
  do sd' <- all_gains pd id (pd * en_tau e) sd; do sq' <- all_gains pq iq (pq * en_tau e) sq;
  Ok ((pd, id), (sd', sq')).
(** The speed controller, 522-538 and 605-624, from the gains of a current controller; None if
    the stage is discrete *)
Definition speed_gains (d : tp) (m : tlims) (a : R) (g : R * R) (s : stage) : res (option stage) :=
  do c <- stage_class (st_type s);
  if c then
    let tn := fst g / snd g in
    let p := tp_j d / (a * a * tn) / tl_torque m * tl_omega m in
    do s' <- all_gains p (p / (a * tn)) (p * en_tau (tp_env d)) s; Ok (Some s')
  else Ok None.
(** FieldOrientedController, 469-492 *)
Definition gain_foc (d : tp) (m : tlims) (a : R) (ss : list (list stage)) : res (list (list stage)) :=
  if is_box (en_space (tp_env d)) then
    do r0 <- at_ ss 0; do sd <- at_ r0 0; do sq <- at_ r0 1;
    do c <- (if Ex_Model3.has "i_sq" (tp_refs d) then stage_class (st_type sq) else Ok false);
    if c then do x <- sync_current (tp_env d) m a sd sq; Ok [[fst (snd x); snd (snd x)]] else Ok ss
  else Ok ss.
(** CascadedFieldOrientedController, 494-550.  In 545 numpy divides by |l_d - l_q|. *)
Definition gain_cfoc (d : tp) (m : tlims) (a : R) (ss : list (list stage)) : res (list (list stage)) :=
  let e := tp_env d in
  if is_box (en_space e) then
    do r0 <- at_ ss 0; do sd <- at_ r0 0; do sq <- at_ r0 1;
    do over <- (if Ex_Model3.has "torque" (tp_refs d) then Ok [] else at_ ss 1);
    do x <- sync_current e m a sd sq;
    do o <- (if Ex_Model3.has "torque" (tp_refs d) then Ok None
             else do s <- at_ over 0; speed_gains d m a (fst x) s);
    Ok ([fst (snd x); snd (snd x)] :: match o with None => [] | Some s => [list_set 0 s over] end)
  else if Ex_Model3.has "omega" (tp_refs d) then
    do r3 <- at_ ss 3; do s <- at_ r3 0; do c <- stage_class (st_type s);
    if c then
      do p <- dict_item "p" (en_mp e); do ld <- dict_item "l_d" (en_mp e); do lq <- dict_item "l_q" (en_mp e);
      let pg := tp_j d / (15 / 10 * (a * a) * p * Rabs (ld - lq)) / tl_isq m * tl_omega m in
      do s' <- all_gains pg (pg / (15 / 10 * en_tau e * a)) (pg * en_tau e) s;
      Ok (list_set 3 (list_set 0 s' r3) ss)
    else Ok ss
  else Ok ss.
(** The current controllers of induction motors, 553-573 and 579-599 *)
Definition im_current (e : env) (ss : list (list stage)) : res ((R * R) * list (list stage)) :=
  do lm <- dict_item "l_m" (en_mp e); do lss <- dict_item "l_sigs" (en_mp e); do lsr <- dict_item "l_sigr" (en_mp e);
  do rs <- dict_item "r_s" (en_mp e); do rr <- dict_item "r_r" (en_mp e);
  let ls := lm + lss in let lr := lm + lsr in
  let sigma := (ls * lr - lm * lm) / (ls * lr) in
  let ts := sigma * ls / (rs + rr * (lm * lm) / (lr * lr)) in
  let p := lr / rr / ts in let i := p / ts in
  do r0 <- at_ ss 0; do s0 <- at_ r0 0; do s1 <- at_ r0 1;
  do s0' <- all_gains p i (p * ts) s0; do s1' <- all_gains p i (p * ts) s1;
  Ok ((p, i), list_set 0 (list_set 1 s1' (list_set 0 s0' r0)) ss).
(** InductionMotorCascadedFieldOrientedController, 575-626 *)
Definition gain_imc (d : tp) (m : tlims) (a : R) (ss : list (list stage)) : res (list (list stage)) :=
  do over <- (if Ex_Model3.has "torque" (tp_refs d) then Ok [] else at_ ss 1);
  do x <- im_current (tp_env d) ss;
  if Ex_Model3.has "torque" (tp_refs d) then Ok (snd x)
  else
    do s <- at_ over 0; do o <- speed_gains d m a (fst x) s;
    match o with None => Ok (snd x) | Some s' => do r0 <- at_ (snd x) 0; Ok [r0; list_set 0 s' over] end.

(** ** The constructors *)
(** FieldOrientedController.__init__, controllers/foc_controller.py 18-90, up to line 60: no
    converter of the package has an attribute [_dead_time]; the rest is never reached. *)
Definition foc_new {A} (d : tp) : res A :=
  let e := tp_env d in
  do _ <- attribute (tp_access d);
  do _ <- py_assert (is_sync (tp_sys d));
  do _ <- first_where (String.eqb "i_sd") (tp_refs d); do _ <- first_where (String.eqb "i_sq") (tp_refs d);
  do _ <- str_index "i_sd" (en_names e); do _ <- str_index "i_sq" (en_names e); do _ <- str_index "u_sd" (en_names e); do _ <- str_index "u_sq" (en_names e);
  do _ <- str_index "u_a" (en_names e); do _ <- str_index "u_b" (en_names e); do _ <- str_index "u_c" (en_names e);
  do _ <- str_index "omega" (en_names e); do _ <- str_index "epsilon" (en_names e);
  Err AttributeError.
(** CascadedFieldOrientedController: fixed part; continuous or discrete actions; the indices of
    the phase currents (discrete only).  The d reference index is only read without torque
    control, which the automatic design never chooses. *)
Record cfoc := { cf_sl : slp; cf_torque : bool; cf_omega : bool; cf_tq : nat; cf_rd : nat; cf_par : foc_par; cf_iabc : list nat }.
(** What calls change: overlaid controllers and [self.ref], and the current controllers *)
Inductive ctls := CDq (cs : base * base) | CAbc (cs : list base).
Record cfocs := { fs_over : list base; fs_ref : list R; fs_ctl : ctls }.
(** The discrete overlaid controllers are made without the argument [_controllers], 119-123:
    TypeError for the first one *)
Definition make_over_disc (ss : list stage) : res (list base) :=
  match ss with [] => Ok [] | s :: _ => do _ <- stage_class (st_type s); Err TypeError end.
(** The three controllers have the class of the first stage, 133-138; the stages of the
    automatic design are equal, so the own class of each is used here *)
Definition make_abc (e : env) (ss : list (list stage)) : res (list base) :=
  do r0 <- at_ ss 0; do s0 <- at_ r0 0; do b0 <- base_make e s0 false false;
  do r1 <- at_ ss 1; do s1 <- at_ r1 0; do b1 <- base_make e s1 false false;
  do r2 <- at_ ss 2; do s2 <- at_ r2 0; do b2 <- base_make e s2 false false; Ok [b0; b1; b2].
(** [__init__], controllers/cascaded_foc_controller.py 19-155, with [decoupling] and
    [torque_control] at their defaults.  Simplification: the motor parameters are read here
    and not by [control]. *)
Definition cfoc_new (d : tp) (ss : list (list stage)) : res (cfoc * cfocs) :=
  let e := tp_env d in
  do _ <- attribute (tp_access d);
  do isd <- str_index "i_sd" (en_names e); do isq <- str_index "i_sq" (en_names e); do usd <- str_index "u_sd" (en_names e); do usq <- str_index "u_sq" (en_names e);
  do _ <- str_index "u_a" (en_names e); do _ <- str_index "u_b" (en_names e); do _ <- str_index "u_c" (en_names e);
  do om <- str_index "omega" (en_names e); do ep <- str_index "epsilon" (en_names e); do tq <- str_index "torque" (en_names e);
  let torque := torque_mode (tp_refs d) in let omega := Ex_Model3.has "omega" (tp_refs d) in
  do rd <- (if Ex_Model3.has "i_sd" (tp_refs d) then do i <- first_where (String.eqb "i_sd") (tp_refs d);
              do _ <- first_where (fun s => negb (String.eqb s "i_sd")) (tp_refs d); Ok i else Ok O);
  do p <- dict_item "p" (en_mp e); do ld <- dict_item "l_d" (en_mp e); do lq <- dict_item "l_q" (en_mp e);
  let psi := match dict_get "psi_p" (en_mp e) with Some x => x | None => 0 end in
  do _ <- (if torque then do _ <- tp_tables d; if tp_complex d then tp_grid d else Err AttributeError else Ok tt);
  let rsi := mode_idx isq isd tq om (tp_refs d) in
  let sl := {| sl_rsi := rsi; sl_low := en_low e; sl_high := en_high e; sl_lim := en_limits e; sl_nom := en_nominal e |} in
  let mk lo hi abc := {| cf_sl := sl; cf_torque := torque; cf_omega := omega; cf_tq := tq; cf_rd := rd; cf_iabc := abc;
     cf_par := {| fo_refd := O; fo_refq := O; fo_isd := isd; fo_isq := isq; fo_usd := usd; fo_usq := usq; fo_omega := om; fo_eps := ep;
                  fo_limit := en_limits e; fo_p := p; fo_ld := ld; fo_lq := lq; fo_psi := psi; fo_dead := 5 / 10; fo_tau := en_tau e;
                  fo_lo := lo; fo_hi := hi; fo_dec := true |} |} in
  let ref := repeat 0 (length rsi) in
  match en_space e with
  | SBox low high =>
      do r0 <- at_ ss 0; do _ <- py_assert (Nat.eqb (length r0) 2);
      do s0 <- at_ r0 0; do c0 <- base_make e s0 false false; do s1 <- at_ r0 1; do c1 <- base_make e s1 false false;
      do over <- (if omega then do r1 <- at_ ss 1; make_over e r1 else Ok []);
      do lo <- item low 0; do hi <- item high 0;
      Ok (mk lo hi [], {| fs_over := over; fs_ref := ref; fs_ctl := CDq (c0, c1) |})
  | _ =>
      do over <- (if omega then do _ <- py_assert (Nat.eqb (length ss) 4); do r3 <- at_ ss 3; make_over_disc r3
                  else do _ <- py_assert (Nat.eqb (length ss) 3); Ok []);
      do abc <- make_abc e ss;
      do ia <- str_index "i_a" (en_names e); do ib <- str_index "i_b" (en_names e); do ic <- str_index "i_c" (en_names e);
      Ok (mk 0 0 [ia; ib; ic], {| fs_over := over; fs_ref := ref; fs_ctl := CAbc abc |})
  end.
(** [control], controllers/cascaded_foc_controller.py 157-291: [cfoc_control] of Ex_Model3 or,
    with discrete actions, 275-282.  The torque conversion is any function with a state. *)
Definition cfoc_step {T} (conv : T -> list R -> R -> res (T * (R * R))) (c : cfoc) (ts : T) (s : cfocs) (state reference : list R) :
    res (T * cfocs * list R) :=
  match fs_ctl s with
  | CDq cs =>
      do x <- cfoc_control conv (cf_sl c) (cf_torque c) (cf_omega c) (cf_tq c) (cf_rd c) (cf_par c) ts cs (fs_over s, fs_ref s) state reference;
      let '(ts', cs', y, a) := x in
      Ok (ts', {| fs_over := fst y; fs_ref := snd y; fs_ctl := CDq cs' |}, a)
  | CAbc cs =>
      do y <- sl_refs (cf_sl c) (cf_omega c) state reference (fs_over s, fs_ref s);
      do z <- (if cf_torque c then do r2 <- item (snd y) 2; do lt <- item (fo_limit (cf_par c)) (cf_tq c);
                 do o <- conv ts state (r2 * lt); Ok (fst o, list_set 1 (snd (snd o)) (list_set 0 (fst (snd o)) (snd y)))
               else Ok (ts, snd y));
      do rq <- item (snd z) 0; do rd <- (if cf_torque c then item (snd z) 1 else item reference (cf_rd c));
      do v <- foc_disc (cf_par c) (cf_iabc c) cs state rd rq;
      Ok (fst z, {| fs_over := fst y; fs_ref := snd z; fs_ctl := CAbc (fst v) |}, [snd v])
  end.
(** [reset], 299-313, but for the torque conversion *)
Definition cfoc_reset (s : cfocs) : cfocs :=
  {| fs_over := map b_reset (fs_over s); fs_ref := fs_ref s;
     fs_ctl := match fs_ctl s with CDq cs => CDq (b_reset (fst cs), b_reset (snd cs)) | CAbc l => CAbc (map b_reset l) end |}.

(** FluxObserver.__init__, controllers/flux_observer.py 10-32, up to [np.complex] *)
Definition fobs_new (d : tp) : res unit :=
  do _ <- attribute (tp_access d);
  do _ <- dict_item "l_m" (en_mp (tp_env d)); do _ <- dict_item "l_sigr" (en_mp (tp_env d)); do _ <- dict_item "r_r" (en_mp (tp_env d)); do _ <- dict_item "p" (en_mp (tp_env d));
  if tp_complex d then Ok tt else Err AttributeError.
(** InductionMotorFieldOrientedController.__init__, controllers/induction_motor_foc.py 15-87:
    the reference indices for d and q, the fixed part and the current controllers.  The code
    has the voltages and actions of the cascaded controller (Ex_Model3): the fields for the
    torque and speed control are empty.  Without a continuous action space there are no
    controllers. *)
Definition imf_new (d : tp) (ss : list (list stage)) : res (nat * nat * imcp * option (base * base)) :=
  let e := tp_env d in
  do _ <- fobs_new d;
  do ia <- str_index "i_sa" (en_names e); do ib <- str_index "i_sb" (en_names e); do ic <- str_index "i_sc" (en_names e);
  do om <- str_index "omega" (en_names e); do isd <- str_index "i_sd" (en_names e); do isq <- str_index "i_sq" (en_names e);
  do ua <- str_index "u_sa" (en_names e); do ub <- str_index "u_sb" (en_names e); do uc <- str_index "u_sc" (en_names e);
  do rd <- first_where (String.eqb "i_sd") (tp_refs d); do rq <- first_where (String.eqb "i_sq") (tp_refs d);
  do p <- dict_item "p" (en_mp e); do lm <- dict_item "l_m" (en_mp e); do lss <- dict_item "l_sigs" (en_mp e); do lsr <- dict_item "l_sigr" (en_mp e);
  do rr <- dict_item "r_r" (en_mp e); do _ <- dict_item "r_s" (en_mp e);
  let lr := lm + lsr in let ls := lm + lss in
  let mk low high := {| cp_torque := false; cp_omega := false; cp_t := None; cp_tq := O;
     cp_sl := {| sl_rsi := []; sl_low := []; sl_high := []; sl_lim := []; sl_nom := [] |};
     cp_fb := {| fb_lm := lm; fb_lr := lr; fb_rr := rr; fb_p := p; fb_tau := en_tau e; fb_i := [ia; ib; ic]; fb_omega := om |};
     cp_f := {| if_lm := lm; if_lr := lr; if_ls := ls; if_sigma := (ls * lr - lm * lm) / (ls * lr); if_rr := rr |};
     cp_isd := isd; cp_isq := isq; cp_om := om; cp_u := [ua; ub; uc]; cp_limits := en_limits e;
     cp_alow := low; cp_ahigh := high; cp_dec := true |} in
  match en_space e with
  | SBox low high =>
      do r0 <- at_ ss 0; do _ <- py_assert (Nat.eqb (length r0) 2);
      do s0 <- at_ r0 0; do c0 <- base_make e s0 false false; do s1 <- at_ r0 1; do c1 <- base_make e s1 false false;
      Ok (rd, rq, mk low high, Some (c0, c1))
  | _ => Ok (rd, rq, mk [] [], None)
  end.
(** [control], controllers/induction_motor_foc.py 89-159, on the state of the observer and the
    current controllers; 115 reads [self.d_controller] *)
Definition imf_control (rd rq : nat) (c : imcp) (s : (R * R) * option (base * base)) (state reference : list R) :
    res (((R * R) * option (base * base)) * list R) :=
  do f <- fb_estimate (cp_fb c) (fst s) (map2 Rmult state (cp_limits c));
  match snd s with
  | None => Err AttributeError
  | Some cs =>
      do vd <- item reference rd; do vq <- item reference rq;
      do v <- imc_voltage c (fst cs) (snd cs) state vq vd (fst (snd f)) (snd (snd f));
      Ok ((fst f, Some (fst v)), snd v)
  end.
(** [reset], 167-171 *)
Definition imf_reset (s : (R * R) * option (base * base)) : res ((R * R) * option (base * base)) :=
  match snd s with None => Err AttributeError | Some cs => Ok ((0, 0), Some (b_reset (fst cs), b_reset (snd cs))) end.
(** InductionMotorCascadedFieldOrientedController.__init__ (Ex_Model3) after [fobs_new]; without
    a continuous action space only the torque conversion is made *)
Definition imc_make (d : tp) (ss : list (list stage)) : res (imcp * imcs) :=
  do _ <- fobs_new d; do r0 <- at_ ss 0;
  imc_new (tp_env d) r0 (match ss with _ :: r1 :: _ => r1 | _ => [] end) (tp_refs d) true.
Record hollow := { ho_fb : fobs; ho_t : option (imt * ims); ho_omega : bool; ho_tq : nat; ho_limits : list R; ho_ref : list R; ho_flux : R * R }.
Definition imc_hollow (d : tp) (ss : list (list stage)) : res hollow :=
  let e := tp_env d in
  do _ <- fobs_new d;
  do lm <- dict_item "l_m" (en_mp e); do lsr <- dict_item "l_sigr" (en_mp e); do rr <- dict_item "r_r" (en_mp e); do p <- dict_item "p" (en_mp e);
  do ia <- str_index "i_sa" (en_names e); do ib <- str_index "i_sb" (en_names e); do ic <- str_index "i_sc" (en_names e);
  do om <- str_index "omega" (en_names e); do tq <- str_index "torque" (en_names e);
  do isd <- str_index "i_sd" (en_names e); do isq <- str_index "i_sq" (en_names e);
  do t <- (if torque_mode (tp_refs d) then do r0 <- at_ ss 0; do s <- at_ r0 1; do x <- imt_new e s; Ok (Some x) else Ok None);
  Ok {| ho_fb := {| fb_lm := lm; fb_lr := lm + lsr; fb_rr := rr; fb_p := p; fb_tau := en_tau e; fb_i := [ia; ib; ic]; fb_omega := om |};
        ho_t := t; ho_omega := Ex_Model3.has "omega" (tp_refs d); ho_tq := tq; ho_limits := en_limits e;
        ho_ref := repeat 0 (length (mode_idx isq isd tq om (tp_refs d))); ho_flux := (0, 0) |}.
(** Its [control], controllers/induction_motor_cascaded_foc.py 157-252: the speed loop reads
    [self.overlaid_controller], which does not exist, and at the end [action] is unbound *)
Definition hollow_control (h : hollow) (state reference : list R) : res (list R) :=
  do f <- fb_estimate (ho_fb h) (ho_flux h) (map2 Rmult state (ho_limits h));
  do r <- item reference 0; do ref <- set_back 0 r (ho_ref h);
  if ho_omega h then Err AttributeError
  else
    do _ <- match ho_t h with
      | None => Ok tt
      | Some (m, s) => do r2 <- item ref 2; do lt <- item (ho_limits h) (ho_tq h);
                       do _ <- imt_control m s state (r2 * lt) (fst (snd f)); Ok tt
      end;
    Err PlainException.

(** ** [make], 40-93 *)
Inductive made3 :=
  | MCfoc (c : cfoc) (s : cfocs) | MImf (rd rq : nat) (c : imcp) (s : option (base * base)) | MImc (c : imcp) (s : imcs) | MHollow (h : hollow).
Definition make3 (d : tp) (a : R) : res made3 :=
  do x <- tp_design d; do m <- tp_lims d;
  let ss := snd x in
  if String.eqb (fst x) "foc_controller" then do s' <- gain_foc d m a ss; foc_new d
  else if String.eqb (fst x) "cascaded_foc_controller" then do s' <- gain_cfoc d m a ss; do c <- cfoc_new d s'; Ok (MCfoc (fst c) (snd c))
  else if String.eqb (fst x) "foc_rotor_flux_observer" then
    do s' <- im_current (tp_env d) ss; do c <- imf_new d (snd s');
    let '(rd, rq, p, s) := c in Ok (MImf rd rq p s)
  else
    do s' <- gain_imc d m a ss;
    if is_box (en_space (tp_env d)) then do c <- imc_make d s'; Ok (MImc (fst c) (snd c)) else do h <- imc_hollow d s'; Ok (MHollow h).
