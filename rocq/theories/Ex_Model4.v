(** TorqueToCurrentConversion of the example controllers: the torque controller of the cascade of
    synchronous motors.  File: /repo/examples/classic_controllers/controllers/
    torque_to_current_conversion.py.
    The look-up code (421-500, 502-546) and the modulation controller (602-650) are line by line
    those of PMSMOperationPointSelection and FieldOrientedControllerOperationPointSelection
    (pmsm_ops.py 250-368, foc_operation_point_selection.py 102-149), so their models in Ops_Model
    and Ops_Model2 are used; here the state is normalised and the currents are clipped and
    normalised.  The tables of the constructor (82-316) are arbitrary lists.  Plots and their
    step counter are not modelled. *)
From Verif Require Export Ops_Model2.
Local Open Scope string_scope. Local Open Scope list_scope. Local Open Scope R_scope.

(** The constructor, 33-73: the parameters of the modulation controller.  [nom] is nominal_state. *)
Definition ttc_par (e : cenv) (nom : list R) : res fpar :=
  do ld <- par "l_d" (ce_par e); do lq <- par "l_q" (ce_par e); do p <- par "p" (ce_par e);
  let psi := match dict_get "psi_p" (ce_par e) with Some x => x | None => 0 end in
  do om <- str_index "omega" (ce_names e); do isd <- str_index "i_sd" (ce_names e); do isq <- str_index "i_sq" (ce_names e);
  do usd <- str_index "u_sd" (ce_names e); do usq <- str_index "u_sq" (ce_names e); do tq <- str_index "torque" (ce_names e);
  do _eps <- str_index "epsilon" (ce_names e);
  let al := foc_alpha (12 / 10) in
  do rs <- par "r_s" (ce_par e);
  do ua <- str_index "u_a" (ce_names e); do lu <- item (ce_limits e) ua;
  do nd <- item nom isd; do nq <- item nom isq;
  let hi := 2 / 10 * sqrt ((psi + ld * nd) * (psi + ld * nd) + lq * nq * (lq * nq)) in
  Ok {| fp_om := om; fp_usd := usd; fp_usq := usq; fp_tq := tq; fp_isd := isd; fp_isq := isq; fp_p := p; fp_tau := ce_tau e;
        fp_udc := sqrt 3 * lu; fp_amax := 2 / sqrt 3; fp_k := 95 / 100; fp_gain := 1 / (lq / (125 / 100 * rs)) * (al - 1) / (al * al);
        fp_low := - hi; fp_high := hi; fp_reset := 1 / 100 * - hi; fp_dlim := nd; fp_qlim := nq; fp_lim := ce_limits e; fp_nom := nom |}.
(** [limited] and [integrated] of a new object, 61-62 *)
Definition ttc_new : fmod := {| fm_int := Some 0; fm_limited := false |}.
(** [reset], 710-712 *)
Definition ttc_reset (f : fpar) (m : fmod) : fmod := {| fm_int := Some (fp_reset f); fm_limited := fm_limited m |}.
(** the quantities of a normalised state.  611-612 multiply before squaring, 622 multiplies |omega|
    by its limit: the same for limits that are not negative. *)
Definition denorm (limits state : list R) : list R := map2 Rmult state limits.
(** 502-546: the currents, from the tables or online *)
Definition ttc_currents (roots : list R -> list R) (tab : option lut) (o : pmsm_ops) (m : fmod) (state : list R) (torque : R) : call fmod (list nan) :=
  match tab with
  | Some l => pmsm_select_lut l o m (denorm (fp_lim (q_f o)) state) [torque]
  | None => let (m', out) := pmsm_select roots o m (denorm (fp_lim (q_f o)) state) [torque] in (m', do y <- out; Ok (map Some y))
  end.
(** 577-596 for one current: [np.clip] keeps nan; a zero limit (inf or nan) is not modelled *)
Definition ttc_norm (x : nan) (nom lim : R) : nan := match x with None => None | Some v => Some (np_clip v (- nom) nom / lim) end.
(** [control], 502-600: i_q before i_d *)
Definition ttc_control (roots : list R -> list R) (tab : option lut) (o : pmsm_ops) (m : fmod) (state : list R) (torque : R) : call fmod (nan * nan) :=
  let f := q_f o in
  let (m', out) := ttc_currents roots tab o m state torque in
  (m', do y <- out; do dq <- match y with [d; q] => Ok (d, q) | _ => Err IndexError end;
       do nq <- item (fp_nom f) (fp_isq f); do lq <- item (fp_lim f) (fp_isq f);
       do nd <- item (fp_nom f) (fp_isd f); do ld <- item (fp_lim f) (fp_isd f);
       Ok (ttc_norm (snd dq) nq lq, ttc_norm (fst dq) nd ld)).
(** a run of the controller: calls with a state and a torque *)
Fixpoint ttc_runs (roots : list R -> list R) (tab : option lut) (o : pmsm_ops) (m : fmod) (h : list (list R * R)) : list (res (nan * nan)) :=
  match h with [] => [] | (x, t) :: r => let (m', out) := ttc_control roots tab o m x t in out :: ttc_runs roots tab o m' r end.
(** the state after a run *)
Fixpoint ttc_after (roots : list R -> list R) (tab : option lut) (o : pmsm_ops) (m : fmod) (h : list (list R * R)) : fmod :=
  match h with [] => m | (x, t) :: r => ttc_after roots tab o (fst (ttc_control roots tab o m x t)) r end.
