(** Model of the torque and speed control of induction motors in examples/classic_controllers
    (see Ex_Model.v for the simplifications).  nan is [None] of [option R]; the two look-up
    tables are the ones of gem_controllers (Ops_Model.v), whose code is a copy. *)
From Verif Require Import Ops_Model.
From Verif Require Import PyBase PyDict Transform_Model PhysSys_Model Ex_Model Ex_Model2.
Local Open Scope string_scope.
Local Open Scope list_scope.
Local Open Scope R_scope.

(** ** InductionMotorTorqueToCurrentConversion,
    controllers/induction_motor_torque_to_current_conversion.py *)
(** What [__init__] fixes: motor constants, [tau], the state indices, limits, nominal values,
    [t_maximum] (the minimum is its negative), the two tables, [psi_max], [i_gain], [u_dc] *)
Record imt := { mt_c : sconst; mt_tau : R; mt_isd : nat; mt_isq : nat; mt_usd : nat; mt_usq : nat; mt_om : nat;
                mt_limits : list R; mt_nominal : list R; mt_tmax : R; mt_opt : list srow; mt_psimax : R; mt_tab : list nan;
                mt_gain : R; mt_udc : R }.
(** What calls change: the flux controller [psi_controller] and [integrated] *)
Record ims := { is_psi : pi; is_int : R }.
(** [damping] of the modulation controller, 75-76 *)
Definition im_alpha : R := 2 / (2 - sqrt (2 * 2 - 1)).
(** [__init__], 18-91; [s] is [stages[0][1]].  The tables are 115-141 ([psi_opt]) and 143-170
    ([t_max]).  Left out: the plots and [limited], which is never read. *)
Definition imt_new (e : env) (s : stage) : res (imt * ims) :=
  do lm <- dict_item "l_m" (en_mp e); do lsr <- dict_item "l_sigr" (en_mp e); do lss <- dict_item "l_sigs" (en_mp e);
  do rr <- dict_item "r_r" (en_mp e); do rs <- dict_item "r_s" (en_mp e); do p <- dict_item "p" (en_mp e);
  let c := {| sc_p := p; sc_lm := lm; sc_lr := lm + lsr; sc_ls := lm + lss; sc_rr := rr; sc_rs := rs |} in
  let tau_s := sc_ls c / rs in
  do isd <- str_index "i_sd" (en_names e); do isq <- str_index "i_sq" (en_names e); do tq <- str_index "torque" (en_names e);
  do usa <- str_index "u_sa" (en_names e); do usd <- str_index "u_sd" (en_names e); do usq <- str_index "u_sq" (en_names e);
  do om <- str_index "omega" (en_names e);
  do pg <- dict_item "p_gain" (st_par s);
  let p_gain := pg * 2 * (tau_s * tau_s) in
  do il <- item (en_limits e) isd; do tl <- item (en_limits e) tq;
  do tab <- psi_opt_table c il (- tl) tl; do pmax <- np_max (map sr_psi tab);
  do un <- item (en_nominal e) usd; do wn <- item (en_nominal e) om; do ul <- item (en_limits e) usa;
  Ok ({| mt_c := c; mt_tau := en_tau e; mt_isd := isd; mt_isq := isq; mt_usd := usd; mt_usq := usq; mt_om := om;
         mt_limits := en_limits e; mt_nominal := en_nominal e; mt_tmax := tl; mt_opt := tab; mt_psimax := pmax;
         mt_tab := t_max_table c un wn pmax;
         mt_gain := 1 / (sc_ls c / (125 / 100 * rs)) * (im_alpha - 1) / (im_alpha * im_alpha); mt_udc := sqrt 3 * ul |},
      {| is_psi := {| pi_p := p_gain; pi_i := p_gain / en_tau e; pi_tau := en_tau e; pi_int := 0 |}; is_int := 0 |}).
(** [get_psi_opt], 174-182, and [get_t_max], 184-186; 0/0 is nan and [round(nan)] raises ValueError *)
Definition im_psi_idx (m : imt) (t : R) : res Z :=
  if req (mt_tmax m) 0 then Err ValueError
  else Ok (py_round ((np_clip t (- mt_tmax m) (mt_tmax m) - - mt_tmax m) / (mt_tmax m - - mt_tmax m) * INR (scim_t_count - 1))).
Definition im_t_idx (m : imt) (psi : R) : res Z :=
  if req (mt_psimax m) 0 then Err ValueError
  else Ok (py_round (np_clip psi 0 (mt_psimax m) / mt_psimax m * INR (scim_psi_count - 1))).
(** [modulation_control], 263-323: the new [integrated] and the flux *)
Definition im_modulation (m : imt) (int : R) (state : list R) : res (R * R) :=
  do sd <- item state (mt_usd m); do ld <- item (mt_limits m) (mt_usd m);
  do sq <- item state (mt_usq m); do lq <- item (mt_limits m) (mt_usq m);
  do w <- item state (mt_om m); do lw <- item (mt_limits m) (mt_om m);
  let a := 2 * sqrt (sd * ld * (sd * ld) + sq * lq * (sq * lq)) / mt_udc m in
  let i := if rlt (101 / 100) a then 5 / 10 * - mt_psimax m else int in
  let da := 8 / 10 - a in
  let om := Rmax (Rabs w * lw) (1 / 10000) in
  let k_i := 2 * Rabs om * sc_p (mt_c m) / mt_udc m in
  let d := mt_gain m * k_i * (da * mt_tau m + i) in
  let hi := 1 / 10 * mt_psimax m in
  let inside := rle (- mt_psimax m) d && rle d hi in
  let d' := if inside then d else np_clip d (- mt_psimax m) hi in
  Ok (if inside then i + da * mt_tau m else i, Rmax (mt_udc m / (sqrt 3 * Rabs om * sc_p (mt_c m)) + d') 0).
(** The q current, 222-230, of a torque that may be nan; [n] is the nominal q current *)
Definition im_q (m : imt) (n : R) (torque : nan) (psi_abs i_sd : R) : nan :=
  match torque with
  | None => None
  | Some t =>
      let q := np_clip (t / Rmax psi_abs (1 / 1000) * 2 / 3 / sc_p (mt_c m) * sc_lr (mt_c m) / sc_lm (mt_c m)) (- n) n in
      if rlt n (sqrt (q * q + i_sd * i_sd)) then
        match np_sqrt (n * n - i_sd * i_sd) with None => None | Some v => Some (np_sign q * v) end
      else Some q
  end.
Definition nan_map (f : R -> R) (x : nan) : nan := match x with None => None | Some v => Some (f v) end.
(** [control], 188-261: the references for i_sq and i_sd and the flux *)
Definition imt_control (m : imt) (s : ims) (state : list R) (torque psi_abs : R) : res (ims * (nan * R * R)) :=
  do k <- im_psi_idx m torque; do row <- np_at (mt_opt m) k;
  do mo <- im_modulation m (is_int s) state;
  let psi_opt := Rmin (sr_psi row) (snd mo) in
  do g <- im_t_idx m psi_opt; do tm <- np_at (mt_tab m) (Z.of_nat scim_psi_count - g);
  let t := nan_map (fun v => np_clip torque (- Rabs v) (Rabs v)) tm in
  do nd <- item (mt_nominal m) (mt_isd m); do nq <- item (mt_nominal m) (mt_isq m);
  let i_ := pi_control (is_psi s) psi_abs psi_opt in
  let i_sd := np_clip i_ (- (9 / 10) * nd) (9 / 10 * nd) in
  let c := if req i_ i_sd then pi_integrate (is_psi s) psi_abs psi_opt else is_psi s in
  do lq <- item (mt_limits m) (mt_isq m); do ld <- item (mt_limits m) (mt_isd m);
  Ok ({| is_psi := c; is_int := fst mo |}, (nan_map (fun v => v / lq) (im_q m nq t psi_abs i_sd), i_sd / ld, psi_opt)).
(** [reset], 361-363 *)
Definition imt_reset (s : ims) : ims := {| is_psi := pi_reset (is_psi s); is_int := is_int s |}.

(** ** The speed loop: controllers/cascaded_foc_controller.py 177-203 and
    controllers/induction_motor_cascaded_foc.py 164-190 *)
(** [ref_state_idx], [state_space.low] and [.high], limits, nominal values *)
Record slp := { sl_rsi : list nat; sl_low : list R; sl_high : list R; sl_lim : list R; sl_nom : list R }.
(** One run of the loop body on the overlaid controllers and [self.ref]; i >= 2 *)
Definition sl_stage (l : slp) (state : list R) (i : nat) (x : list base * list R) : res (list base * list R) :=
  do b <- at_ (fst x) (i - 2); do sj <- at_ (sl_rsi l) (S i); do s <- item state sj; do r <- item (snd x) (S i);
  let (b1, y) := b_control b s r in
  do _ <- item (snd x) i;
  do si <- at_ (sl_rsi l) i; do lo <- item (sl_low l) si; do hi <- item (sl_high l) si;
  if rle (85 / 100 * lo) y && rle y (85 / 100 * hi) && is_cont b then
    do b2 <- b_integrate b1 s r; Ok (list_set (i - 2) b2 (fst x), list_set i y (snd x))
  else
    do n <- item (sl_nom l) si; do m <- item (sl_lim l) si;
    Ok (list_set (i - 2) b1 (fst x), list_set i (np_clip y (n / m * lo) (n / m * hi)) (snd x)).
Fixpoint sl_loop (l : slp) (state : list R) (is : list nat) (x : list base * list R) : res (list base * list R) :=
  match is with
  | [] => Ok x
  | i :: is' => do x' <- sl_stage l state i x; sl_loop l state is' x'
  end.
(** [range(n + 1, 1, -1)] *)
Definition sl_range (n : nat) : list nat := rev (seq 2 n).
(** [self.ref[-1] = reference[0]] and the loop (if [omega_control]).  [ref_idx] is always 0:
    the index of the q current is overwritten (cascaded_foc_controller.py 57 and 85,
    induction_motor_cascaded_foc.py 72 and 84). *)
Definition sl_refs (l : slp) (omega : bool) (state reference : list R) (x : list base * list R) : res (list base * list R) :=
  do r <- item reference 0;
  do ref <- set_back 0 r (snd x);
  if omega then sl_loop l state (sl_range (length (fst x))) (fst x, ref) else Ok (fst x, ref).
(** The modes: which of "torque", "omega", "i_sd" are among the reference states
    (induction_motor_cascaded_foc.py 65-82, cascaded_foc_controller.py 52-83) *)
Definition has (n : string) (refs : list string) : bool := existsb (String.eqb n) refs.
Definition torque_mode (refs : list string) : bool := has "torque" refs || has "omega" refs.
Definition mode_idx (isq isd tq om : nat) (refs : list string) : list nat :=
  [isq; isd] ++ (if torque_mode refs then [tq] else []) ++ (if has "omega" refs then [om] else []).

(** ** InductionMotorCascadedFieldOrientedController, controllers/induction_motor_cascaded_foc.py,
    with a continuous action space (without one [control] ends in UnboundLocalError or
    AttributeError, [action] is only assigned in the branch at 199) *)
Record imcp := { cp_torque : bool; cp_omega : bool; cp_sl : slp; cp_t : option imt; cp_fb : fobs; cp_f : imf;
                 cp_isd : nat; cp_isq : nat; cp_om : nat; cp_tq : nat; cp_u : list nat; cp_limits : list R;
                 cp_alow : list R; cp_ahigh : list R; cp_dec : bool }.
Record imcs := { cs_ref : list R; cs_flux : R * R; cs_t : option ims; cs_d : base; cs_q : base; cs_over : list base }.
(** [__init__], 20-144; [dec] is the key word argument [decoupling]; [ss1] is [stages[1]], which is read
    for the speed loop only.  Simplification: the index errors of [np.where] at 70-72 are those
    of [first_where]. *)
Fixpoint make_over (e : env) (ss : list stage) : res (list base) :=
  match ss with [] => Ok [] | s :: ss' => do b <- base_make e s true false; do bs <- make_over e ss'; Ok (b :: bs) end.
Definition imc_new (e : env) (ss0 ss1 : list stage) (refs : list string) (dec : bool) : res (imcp * imcs) :=
  match en_space e with
  | SBox low high =>
      do lm <- dict_item "l_m" (en_mp e); do lsr <- dict_item "l_sigr" (en_mp e); do rr <- dict_item "r_r" (en_mp e); do p <- dict_item "p" (en_mp e);
      do isa <- str_index "i_sa" (en_names e); do isb <- str_index "i_sb" (en_names e); do isc <- str_index "i_sc" (en_names e);
      do om <- str_index "omega" (en_names e); do isd <- str_index "i_sd" (en_names e); do isq <- str_index "i_sq" (en_names e);
      do ua <- str_index "u_sa" (en_names e); do ub <- str_index "u_sb" (en_names e); do uc <- str_index "u_sc" (en_names e);
      do tq <- str_index "torque" (en_names e);
      do lss <- dict_item "l_sigs" (en_mp e);
      let lr := lm + lsr in let ls := lm + lss in
      do _ <- (if has "i_sd" refs then first_where (fun s => negb (String.eqb s "i_sd")) refs else Ok O);
      do t <- (if torque_mode refs then do s0 <- at_ ss0 1; do x <- imt_new e s0; Ok (Some (fst x), Some (snd x)) else Ok (None, None));
      do _ <- py_assert (Nat.eqb (length ss0) 2);
      do sd <- at_ ss0 0; do sq <- at_ ss0 1; do d <- base_make e sd false false; do q <- base_make e sq false false;
      do over <- (if has "omega" refs then make_over e ss1 else Ok []);
      let rsi := mode_idx isq isd tq om refs in
      Ok ({| cp_torque := torque_mode refs; cp_omega := has "omega" refs;
             cp_sl := {| sl_rsi := rsi; sl_low := en_low e; sl_high := en_high e; sl_lim := en_limits e; sl_nom := en_nominal e |};
             cp_t := fst t;
             cp_fb := {| fb_lm := lm; fb_lr := lr; fb_rr := rr; fb_p := p; fb_tau := en_tau e; fb_i := [isa; isb; isc]; fb_omega := om |};
             cp_f := {| if_lm := lm; if_lr := lr; if_ls := ls; if_sigma := (ls * lr - lm * lm) / (ls * lr); if_rr := rr |};
             cp_isd := isd; cp_isq := isq; cp_om := om; cp_tq := tq; cp_u := [ua; ub; uc]; cp_limits := en_limits e;
             cp_alow := low; cp_ahigh := high; cp_dec := dec |},
          {| cs_ref := repeat 0 (length rsi); cs_flux := (0, 0); cs_t := snd t; cs_d := d; cs_q := q; cs_over := over |})
  | _ => Err AttributeError
  end.
(** 192-197: the current references in [ref[0]], [ref[1]]; [None] is a nan reference *)
Definition imc_torque (c : imcp) (ts : option ims) (state : list R) (ref : list R) (psi : R) : res (option ims * (nan * R)) :=
  if cp_torque c then
    match cp_t c, ts with
    | Some m, Some s =>
        do r2 <- item ref 2; do lt <- item (cp_limits c) (cp_tq c);
        do x <- imt_control m s state (r2 * lt) psi;
        Ok (Some (fst x), (fst (fst (snd x)), snd (fst (snd x))))
    | _, _ => Err AttributeError
    end
  else do r0 <- item ref 0; do r1 <- item ref 1; Ok (ts, (Some r0, r1)).
(** 230-236: from the dq voltages to the action, and whether it was not clipped; numpy cannot
    combine three voltages with bounds for another number of actions ([cp_ahigh] has as many
    entries as [cp_alow]; boxes of one dimension do not occur with these motors) *)
Definition imc_action (c : imcp) (ud uq angle : R) : res (list R * bool) :=
  do abc <- dq_to_abc [ud; uq] angle false;
  do lu <- select (cp_u c) (cp_limits c);
  let u := map2 Rdiv abc lu in
  do _ <- (if Nat.eqb (length u) (length (cp_alow c)) then Ok tt else Err ValueError);
  let act := map2 (fun x b => np_clip x (fst b) (snd b)) u (combine (cp_alow c) (cp_ahigh c)) in
  Ok (act, forallb (fun p => req (fst p) (snd p)) (combine act u)).
(** 199-242 with real references: the voltages, the action and the current controllers *)
Definition imc_voltage (c : imcp) (d q : base) (state : list R) (rq rd psi angle : R) : res (base * base * list R) :=
  let st := map2 Rmult state (cp_limits c) in
  do w <- item st (cp_om c); do isd <- item st (cp_isd c); do isq <- item st (cp_isq c);
  do ld <- item (cp_limits c) (cp_isd c); do lq <- item (cp_limits c) (cp_isq c);
  let ws := if_omega_s (cp_f c) w isq psi in
  let (d1, yd) := b_control d isd (rd * ld) in
  let (q1, yq) := b_control q isq (rq * lq) in
  let u0 := if cp_dec c then (if_usd0 (cp_f c) ws isq psi, if_usq0 (cp_f c) ws w isd psi) else (0, 0) in
  do a <- imc_action c (fst u0 + yd) (snd u0 + yq) angle;
  if snd a then
    do d2 <- b_integrate d1 isd (rd * ld); do q2 <- b_integrate q1 isq (rq * lq); Ok (d2, q2, fst a)
  else Ok (d1, q1, fst a).
(** [control], 146-252.  With a nan reference the action is nan ([Ok None]) and the current
    controllers do not integrate; the model stops there. *)
Definition imc_control (c : imcp) (s : imcs) (state reference : list R) : res (option (imcs * list R)) :=
  do f <- fb_estimate (cp_fb c) (cs_flux s) (map2 Rmult state (cp_limits c));
  let psi := fst (snd f) in
  do x <- sl_refs (cp_sl c) (cp_omega c) state reference (cs_over s, cs_ref s);
  do t <- imc_torque c (cs_t s) state (snd x) psi;
  match fst (snd t) with
  | None => Ok None
  | Some rq =>
      let rd := snd (snd t) in
      do v <- imc_voltage c (cs_d s) (cs_q s) state rq rd psi (snd (snd f));
      Ok (Some ({| cs_ref := list_set 1 rd (list_set 0 rq (snd x)); cs_flux := fst f; cs_t := fst t;
                   cs_d := fst (fst v); cs_q := snd (fst v); cs_over := fst x |}, snd v))
  end.
(** [reset], 262-278; [self.ref] is kept *)
Definition imc_reset (s : imcs) : imcs :=
  {| cs_ref := cs_ref s; cs_flux := (0, 0); cs_t := match cs_t s with None => None | Some t => Some (imt_reset t) end;
     cs_d := b_reset (cs_d s); cs_q := b_reset (cs_q s); cs_over := map b_reset (cs_over s) |}.

(** ** CascadedFieldOrientedController, controllers/cascaded_foc_controller.py, with a continuous
    action space: 166-271.  [conv] is [torque_controller.control], any function of its own state;
    [rd_idx] is [ref_d_idx]. *)
Definition cfoc_control {T} (conv : T -> list R -> R -> res (T * (R * R))) (l : slp) (torque omega : bool) (tq rd_idx : nat) (f : foc_par)
  (ts : T) (cs : base * base) (x : list base * list R) (state reference : list R) : res (T * (base * base) * (list base * list R) * list R) :=
  do y <- sl_refs l omega state reference x;
  do z <- (if torque then do r2 <- item (snd y) 2; do lt <- item (fo_limit f) tq;
                          do c <- conv ts state (r2 * lt); Ok (fst c, list_set 1 (snd (snd c)) (list_set 0 (fst (snd c)) (snd y)))
           else Ok (ts, snd y));
  do rq <- item (snd z) 0;
  do rd <- (if torque then item (snd z) 1 else item reference rd_idx);
  do v <- cfoc_cont f cs state rd rq;
  Ok (fst z, fst v, (fst y, snd z), snd v).
