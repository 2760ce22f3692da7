(** Operation point selection of gem_controllers: from a torque reference to current references.
    Files: /repo/src/gem_controllers/stages/operation_point_selection/*.py.
    numpy's nan is [None] of [option R].  A division by zero (numpy: inf or nan) is not
    modelled: Coq's [/] is total, the theorems assume the divisors not zero. *)
From Verif Require Export PyBase PyDict Transform_Model Conv_Model Ctl_Model.
From Coq Require Import ZArith.
Local Open Scope string_scope. Local Open Scope list_scope. Local Open Scope R_scope.

(** ** numpy and python *)
Definition nan := option R.
(** [np.sqrt(x)] *)
Definition np_sqrt (x : R) : nan := if rlt x 0 then None else Some (sqrt x).
(** [np.linspace(a, b, n)], n > 1 *)
Definition linspace (a b : R) (n : nat) : list R := map (fun k => a + INR k * ((b - a) / INR (n - 1))) (seq 0 n).
(** [round(x)]: half to even *)
Definition py_round (x : R) : Z :=
  let z := Int_part x in let f := x - IZR z in
  if rlt f (1 / 2) then z else if rlt (1 / 2) f then (z + 1)%Z else if Z.even z then z else (z + 1)%Z.
(** [l[z]] *)
Definition np_at {A} (l : list A) (z : Z) : res A :=
  let n := Z.of_nat (length l) in
  let k := (if z <? 0 then n + z else z)%Z in
  if (k <? 0)%Z then Err IndexError else match nth_error l (Z.to_nat k) with Some x => Ok x | None => Err IndexError end.
(** [np.argmin(l)]: the first position of the minimum *)
Fixpoint argmin_from (best : R) (bi i : nat) (l : list R) : nat :=
  match l with
  | [] => bi
  | x :: r => if rlt x best then argmin_from x i (S i) r else argmin_from best bi (S i) r
  end.
Definition argmin (l : list R) : res nat := match l with [] => Err ValueError | x :: r => Ok (argmin_from x 0 1 r) end.
(** [np.max(l)] *)
Definition np_max (l : list R) : res R := match l with [] => Err ValueError | x :: r => Ok (fold_left Rmax r x) end.
(** [bool(array)]: numpy up to 2.1 warns and says False for an empty array, later versions
    raise; [empty] is what the installed version does. *)
Definition truth (empty : res bool) (l : list bool) : res bool := match l with [] => empty | [b] => Ok b | _ => Err ValueError end.

(** ** PermExDcOperationPointSelection, permex_dc_ops.py *)
Record perm_ops := { po_flux : list R; po_volt : list R; po_res : list R; po_om : nat }.
(** 48-53 *)
Definition perm_new : perm_ops := {| po_flux := []; po_volt := []; po_res := []; po_om := 0 |}.
(** [tune], 76-91; [_resistance] is not set *)
Definition perm_tune (o : perm_ops) (e : cenv) (id : string) : res perm_ops :=
  do m <- motor_type id; do fl <- read psi_reader m e; do us <- dict_item m voltages; do ui <- indices e us;
  do v <- select ui (ce_limits e); do om <- str_index "omega" (ce_names e);
  Ok {| po_flux := fl; po_volt := v; po_res := po_res o; po_om := om |}.
(** [_max_current_per_speed], 72-74 *)
Definition perm_max (o : perm_ops) (state : list R) : res (list R) :=
  do w <- item state (po_om o); do d <- np_bin Rplus (po_res o) (map (fun f => f * Rabs w) (po_flux o)); np_bin Rdiv (po_volt o) d.
(** [_select_operating_point], 55-70; [min(a, b)] is b if bool(b < a), [max(a, b)] is b if bool(b > a) *)
Definition perm_select (empty : res bool) (o : perm_ops) (state ref : list R) : res (list R) :=
  do w <- item state (po_om o);
  do i <- np_bin Rdiv ref (po_flux o); do mx <- perm_max o state;
  if rlt 0 w
  then do c <- np_cmp rlt mx i; do t <- truth empty c; Ok (if t then mx else i)
  else let mn := map Ropp mx in do c <- np_cmp (fun x y => rlt y x) mn i; do t <- truth empty c; Ok (if t then mn else i).

(** parameter_reader.py l_prime_reader, 390-404 *)
Definition l_prime_reader : dict reader :=
  [("SeriesDc", one (par "l_e_prime")); ("ShuntDc", one (par "l_e_prime")); ("ExtExDc", one (par "l_e_prime")); ("PermExDc", one (num 0));
   ("PMSM", two (num 0) (num 0)); ("SynRM", two (op1 Ropp (par "l_sq")) (par "l_sd")); ("SCIM", two (num 0) (num 0)); ("EESM", three (num 0) (num 0) (num 0))].

(** ** SeriesDcOperationPointSelection, series_dc_ops.py: [tune] 38-50, [_select_operating_point] 25-36 *)
Definition series_tune (e : cenv) (id : string) : res (list R) := do m <- motor_type id; read l_prime_reader m e.
Definition series_select (l ref : list R) : res (list nan) := do x <- np_bin Rdiv ref l; Ok (map np_sqrt x).

(** ** ShuntDcOperationPointSelection, shunt_dc_ops.py *)
Record shunt_ops := { so_l : list R; so_ie : nat; so_ia : nat; so_alim : R; so_elim : R }.
(** [tune], 92-107 *)
Definition shunt_tune (e : cenv) (margin : R) : res shunt_ops :=
  do l <- read l_prime_reader "ShuntDc" e; do ie <- str_index "i_e" (ce_names e); do ia <- str_index "i_a" (ce_names e);
  do la <- item (ce_limits e) ia; do le <- item (ce_limits e) ie;
  Ok {| so_l := l; so_ie := ie; so_ia := ia; so_alim := la * (1 - margin); so_elim := le * (1 - margin) |}.
(** [_select_operating_point], 66-90; the scalar returned by 80 and 82 is written as an array of length one *)
Definition shunt_select (o : shunt_ops) (state ref : list R) : res (list R) :=
  do ie <- item state (so_ie o);
  if rlt (so_elim o) ie then Ok [- so_alim o]
  else if rlt ie (- so_elim o) then Ok [so_alim o]
  else let d := if rle 0 ie && rlt ie (1 / 10000) then 1 / 10000 else if rlt ie 0 && rlt (- (1 / 10000)) ie then - (1 / 10000) else ie in
       do x <- np_bin Rdiv ref (so_l o); Ok (map (fun v => v / d) x).

(** ** ExtExDcOperationPointSelection, extex_dc_ttc.py *)
Record ext_ops := { eo_l : list R; eo_ie : nat; eo_ra : R; eo_re : R; eo_lep : R }.
(** [tune], 81-99; the square root of a resistance *)
Definition ext_tune (e : cenv) (id : string) : res ext_ops :=
  do m <- motor_type id; do ie <- str_index "i_e" (ce_names e); do ia <- str_index "i_a" (ce_names e);
  do l <- read l_prime_reader m e; do ra <- par "r_a" (ce_par e); do re <- par "r_e" (ce_par e); do lp <- par "l_e_prime" (ce_par e);
  Ok {| eo_l := l; eo_ie := ie; eo_ra := sqrt ra; eo_re := sqrt re; eo_lep := lp |}.
(** [__i_e_policy], 59-61, and [_select_operating_point], 63-79 *)
Definition ext_select (o : ext_ops) (state ref : list R) : res (list R) :=
  do r <- item ref 0; do l <- item (eo_l o) 0; do ie <- item state (eo_ie o);
  Ok [r / l / Rmax ie (1 / 10000); sqrt (eo_ra o * Rabs r / (eo_re o * eo_lep o))].

(** ** FieldOrientedControllerOperationPointSelection, foc_operation_point_selection.py *)
(** What [tune] and the subclasses set: state indices, p, tau, u_dc, a_max, k_, i_gain, psi_low, psi_high,
    integrated_reset, the current limits, [limits] and [nominal_state] of the physical system. *)
Record fpar := {
  fp_om : nat; fp_usd : nat; fp_usq : nat; fp_tq : nat; fp_isd : nat; fp_isq : nat; fp_p : R; fp_tau : R; fp_udc : R; fp_amax : R; fp_k : R; fp_gain : R;
  fp_low : R; fp_high : R; fp_reset : R; fp_dlim : R; fp_qlim : R; fp_lim : list R; fp_nom : list R }.
(** [integrated] (None: the value None) and [limited] *)
Record fmod := { fm_int : option R; fm_limited : bool }.
(** The dynamic distance, 84: [alpha] from the damping *)
Definition foc_alpha (damping : R) : R := damping / (damping - sqrt (damping * damping - 1)).
(** [tune], 56-87.  [old] is [integrated_reset] at that moment: None at the first call, since
    the subclasses set it after [super().tune]; line 87 copies it to [integrated].
    k_, i_gain, psi_low, psi_high and integrated_reset are filled in by the subclass ([foc_fill]). *)
Definition foc_tune (amax : R) (old : option R) (e : cenv) (nom : list R) (margin : R) : res (fpar * fmod) :=
  do om <- str_index "omega" (ce_names e); do usd <- str_index "u_sd" (ce_names e); do usq <- str_index "u_sq" (ce_names e);
  do tq <- str_index "torque" (ce_names e); do eps <- str_index "epsilon" (ce_names e);
  do isd <- str_index "i_sd" (ce_names e); do isq <- str_index "i_sq" (ce_names e);
  do ua <- str_index (if str_in "u_a" (ce_names e) then "u_a" else "u_sa") (ce_names e);
  do p <- par "p" (ce_par e);
  do ld <- item (ce_limits e) isd; do lq <- item (ce_limits e) isq; do lu <- item (ce_limits e) ua;
  Ok ({| fp_om := om; fp_usd := usd; fp_usq := usq; fp_tq := tq; fp_isd := isd; fp_isq := isq; fp_p := p; fp_tau := ce_tau e; fp_udc := sqrt 3 * lu;
         fp_amax := amax; fp_k := 0; fp_gain := 0; fp_low := 0; fp_high := 0; fp_reset := 0; fp_dlim := ld * (1 - margin); fp_qlim := lq * (1 - margin);
         fp_lim := ce_limits e; fp_nom := nom |}, {| fm_int := old; fm_limited := false |}).
Definition foc_fill (f : fpar) (k gain low high reset : R) : fpar :=
  {| fp_om := fp_om f; fp_usd := fp_usd f; fp_usq := fp_usq f; fp_tq := fp_tq f; fp_isd := fp_isd f; fp_isq := fp_isq f; fp_p := fp_p f; fp_tau := fp_tau f;
     fp_udc := fp_udc f; fp_amax := fp_amax f; fp_k := k; fp_gain := gain; fp_low := low; fp_high := high; fp_reset := reset;
     fp_dlim := fp_dlim f; fp_qlim := fp_qlim f; fp_lim := fp_lim f; fp_nom := fp_nom f |}.
(** [modulation_control], 102-145 *)
Definition modulation (f : fpar) (m : fmod) (state : list R) : call fmod R :=
  match (do usd <- item state (fp_usd f); do usq <- item state (fp_usq f); do w <- item state (fp_om f); Ok (usd, usq, w)) with
  | Err x => (m, Err x)
  | Ok (usd, usq, w) =>
      let a := 2 * sqrt (usd * usd + usq * usq) / fp_udc f in
      let int := if rlt (11 / 10 * fp_amax f) a then Some (fp_reset f) else fm_int m in
      let da := fp_k f * fp_amax f - a in
      let om := Rmax (Rabs w) (1 / 10000) in
      let pm := fp_udc f / (sqrt 3 * om * fp_p f) in
      let ki := 2 * om * fp_p f / fp_udc f in
      let g := fp_gain f / ki in
      match int with
      | None => ({| fm_int := None; fm_limited := fm_limited m |}, Err TypeError)
      | Some i =>
          let d := g * (da * fp_tau f + i) in
          if rle (fp_low f) d && rle d (fp_high f)
          then ({| fm_int := Some ((if fm_limited m then fp_reset f else i) + da * fp_tau f); fm_limited := false |}, Ok (pm + d))
          else ({| fm_int := Some i; fm_limited := true |}, Ok (pm + np_clip d (fp_low f) (fp_high f)))
      end
  end.
(** [reset], 147-149; [limited] is kept *)
Definition foc_reset (f : fpar) (m : fmod) : fmod := {| fm_int := Some (fp_reset f); fm_limited := fm_limited m |}.

(** ** SCIMOperationPointSelection, scim_ops.py *)
(** The flux controller with its [_clipped] array, which is a float array (so that [~] raises
    TypeError) until the first [reset] (i_controller.py 61-73, 105-121). *)
Record fctl := { fc_b : base; fc_ready : bool }.
(** the default argument [PIController(control_task="FC")], 22-27: one object for all instances *)
Definition fctl_new : fctl := {| fc_b := base_new KPI FC; fc_ready := false |}.
Definition fctl_reset (c : fctl) : fctl := {| fc_b := base_reset (fc_b c); fc_ready := true |}.
(** [integrate], i_controller.py 105-115 *)
Definition fctl_integrate (c : fctl) (state ref : list R) : call fctl unit :=
  match (do e <- np_bin Rminus ref state;
         match b_tau (fc_b c) with None => Err TypeError | Some t => if fc_ready c then np_bin Rplus (b_int (fc_b c)) (map (fun x => x * t) e) else Err TypeError end) with
  | Ok v => ({| fc_b := base_set_int (fc_b c) v; fc_ready := fc_ready c |}, Ok tt)
  | Err x => (c, Err x)
  end.
(** [t_count], [psi_count], [i_sd_count], 126-128 *)
Definition scim_t_count : nat := 1001.
Definition scim_psi_count : nat := 1000.
Definition scim_i_count : nat := 500.
(** Motor constants: p, l_m, l_r, l_s, r_r, r_s *)
Record sconst := { sc_p : R; sc_lm : R; sc_lr : R; sc_ls : R; sc_rr : R; sc_rs : R }.
(** The currents and losses of [_psi_opt], 53-64, for one torque and one i_sd *)
Definition scim_isq (c : sconst) (t i_sd : R) : R := t / (3 / 2 * sc_p c * (sc_lm c * sc_lm c) / sc_lr c * i_sd).
Definition scim_loss (c : sconst) (i_sd i_sq : R) : R :=
  3 / 2 * (sc_rs c * (i_sd * i_sd) + (sc_rs c + sc_rr c * (sc_lm c * sc_lm c) / (sc_lr c * sc_lr c)) * (i_sq * i_sq)).
Record srow := { sr_t : R; sr_psi : R; sr_d : R; sr_q : R }.
(** one row of [_psi_opt], 52-73: the position found in [i_sd[1:]] is used in [i_sd] *)
Definition psi_opt_row (c : sconst) (ilim t : R) : res srow :=
  if req t 0 then Ok {| sr_t := t; sr_psi := sc_lm c * 0; sr_d := 0; sr_q := 0 |}
  else let i_sd := linspace 0 ilim scim_i_count in
       let i_sq := map (scim_isq c t) (tl i_sd) in
       do k <- argmin (map2 (scim_loss c) (tl i_sd) i_sq);
       do d <- item i_sd k; do q <- item i_sq k;
       Ok {| sr_t := t; sr_psi := sc_lm c * d; sr_d := d; sr_q := q |}.
Fixpoint mapm {A B} (f : A -> res B) (l : list A) : res (list B) :=
  match l with [] => Ok [] | x :: r => do y <- f x; do ys <- mapm f r; Ok (y :: ys) end.
(** [_psi_opt], 48-74 *)
Definition psi_opt_table (c : sconst) (ilim tmin tmax : R) : res (list srow) :=
  mapm (psi_opt_row c ilim) (linspace tmin tmax scim_t_count).
(** [_t_max], 76-104, first row: torques for falling flux, then mirrored *)
Definition t_max_half (c : sconst) (unom wnom psimax : R) : list nan :=
  map (fun psi => match np_sqrt (unom * unom / (wnom * wnom * (sc_ls c * sc_ls c)) - (psi / sc_lm c) * (psi / sc_lm c)) with
                  | None => None
                  | Some q => Some (3 / 2 * sc_p c * sc_lm c / sc_lr c * psi * q)
                  end) (linspace psimax 0 scim_psi_count).
Definition nan_opp (x : nan) : nan := match x with None => None | Some v => Some (- v) end.
Definition t_max_table (c : sconst) (unom wnom psimax : R) : list nan :=
  let h := t_max_half c unom wnom psimax in h ++ map nan_opp (rev h).
(** The tuned stage *)
Record scim := { s_f : fpar; s_c : sconst; s_abs : nat; s_tmin : R; s_tmax : R; s_opt : list srow; s_psimax : R; s_tab : list nan }.
(** [tune], 106-151 *)
Definition scim_tune (amax damping : R) (old : option R) (fc : fctl) (e : cenv) (nom : list R) (id : string) (margin : R) : res (scim * fmod * fctl) :=
  do fm <- foc_tune amax old e nom margin;
  let f := fst fm in
  do ab <- str_index "psi_abs" (ce_names e); do tl <- item (ce_limits e) (fp_tq f);
  do lm <- par "l_m" (ce_par e); do lsr <- par "l_sigr" (ce_par e); do lss <- par "l_sigs" (ce_par e); do rr <- par "r_r" (ce_par e); do rs <- par "r_s" (ce_par e);
  let c := {| sc_p := fp_p f; sc_lm := lm; sc_lr := lm + lsr; sc_ls := lm + lss; sc_rr := rr; sc_rs := rs |} in
  do b <- pi_tune (fc_b fc) e id 4 (Some (sc_ls c / rs));
  do il <- item (ce_limits e) (fp_isd f);
  do tab <- psi_opt_table c il (- tl) tl; do pmax <- np_max (map sr_psi tab);
  do un <- item nom (fp_usd f); do wn <- item nom (fp_om f);
  let al := foc_alpha damping in
  Ok ({| s_f := foc_fill f (8 / 10) (1 / (sc_ls c / (125 / 100 * rs)) * (al - 1) / (al * al)) (- pmax) (1 / 10 * pmax) (1 / 2 * - pmax);
         s_c := c; s_abs := ab; s_tmin := - tl; s_tmax := tl; s_opt := tab; s_psimax := pmax; s_tab := t_max_table c un wn pmax |},
      snd fm, {| fc_b := b; fc_ready := fc_ready fc |}).
(** [_get_psi_opt], 154-157; 0/0 is nan, [round(nan)] raises ValueError *)
Definition get_psi_opt (s : scim) (t : R) : res Z :=
  if req (s_tmax s - s_tmin s) 0 then Err ValueError
  else Ok (py_round ((np_clip t (s_tmin s) (s_tmax s) - s_tmin s) / (s_tmax s - s_tmin s) * INR (scim_t_count - 1))).
(** [_get_t_max], 159-162 *)
Definition get_t_max (s : scim) (psi : R) : res Z :=
  if req (s_psimax s) 0 then Err ValueError
  else Ok (py_round (np_clip psi 0 (s_psimax s) / s_psimax s * INR (scim_psi_count - 1))).
(** 183-194: the current references from the torque, the flux and the demanded i_sd *)
Definition scim_currents (s : scim) (torque : nan) (psi i_sd : R) : nan :=
  match torque with
  | None => None
  | Some t =>
      let q := np_clip (t / Rmax psi (1 / 1000) * 2 / 3 / sc_p (s_c s) * sc_lr (s_c s) / sc_lm (s_c s)) (- fp_qlim (s_f s)) (fp_qlim (s_f s)) in
      if rlt (fp_dlim (s_f s)) (sqrt (q * q + i_sd * i_sd)) then
        match np_sqrt (fp_dlim (s_f s) * fp_dlim (s_f s) - i_sd * i_sd) with None => None | Some v => Some (np_sign q * v) end
      else Some q
  end.
(** [_select_operating_point], 164-194 *)
Definition scim_select (s : scim) (m : fmod) (fc : fctl) (state ref : list R) : call (fmod * fctl) (list nan) :=
  match (do psi <- item state (s_abs s); do r <- item ref 0; do k <- get_psi_opt s r; do row <- np_at (s_opt s) k; Ok (psi, r, sr_psi row)) with
  | Err x => ((m, fc), Err x)
  | Ok (psi, r, po) =>
      let (m1, pm) := modulation (s_f s) m state in
      match (do pmx <- pm; let po1 := Rmin po pmx in do g <- get_t_max s po1; do tm <- np_at (s_tab s) (Z.of_nat scim_psi_count - g); do u <- pi_control (fc_b fc) [psi] [po1]; Ok (po1, tm, u)) with
      | Err x => ((m1, fc), Err x)
      | Ok (po1, tm, [u]) =>
          let torque := match tm with None => None | Some t => Some (np_clip r (- Rabs t) (Rabs t)) end in
          let i_sd := np_clip u (- fp_dlim (s_f s)) (fp_dlim (s_f s)) in
          let (fc1, ri) := if req u i_sd then fctl_integrate fc [psi] [po1] else (fc, Ok tt) in
          ((m1, fc1), do _u <- ri; Ok [Some i_sd; scim_currents s torque psi i_sd])
      | Ok (_, _, _) => ((m1, fc), Err ValueError)
      end
  end.

(** ** PMSMOperationPointSelection, pmsm_ops.py (PMSM and SynRM) *)
Definition pm_t_count : nat := 250.
Definition pm_psi_count : nat := 250.
Definition pm_i_count : nat := 500.
(** l_d, l_q, psi_p, p *)
Record pconst := { pc_ld : R; pc_lq : R; pc_psi : R; pc_p : R }.
(** Row of a table: torque, i_d, i_q, flux *)
Record prow := { pr_t : R; pr_d : R; pr_q : R; pr_psi : R }.
Definition pm_flux (c : pconst) (d q : R) : R := sqrt ((pc_psi c + pc_ld c * d) * (pc_psi c + pc_ld c * d) + pc_lq c * q * (pc_lq c * q)).
(** one row of [_get_mtpc_lookup_table], 60-86.  psi_p = 0 with l_d = l_q (no torque at all)
    appends an array to a row, which [np.array] rejects. *)
Definition mtpc_row (c : pconst) (dlim qlim t : R) : res prow :=
  let fin d q := {| pr_t := t; pr_d := d; pr_q := q; pr_psi := pm_flux c d q |} in
  let i_q d := t / (d * (pc_ld c - pc_lq c) + pc_psi c) / (15 / 10 * pc_p c) in
  let i_d q := - Rabs (t / (15 / 10 * pc_p c * (pc_ld c - pc_lq c) * q)) in
  if req (pc_ld c) (pc_lq c) then
    if req (pc_psi c) 0 then Err ValueError else Ok (fin 0 (i_q 0))
  else
    let cur := if req (pc_psi c) 0
               then map (fun q => (i_d q, q)) (linspace (- (25 / 10) * qlim) (25 / 10 * qlim) pm_i_count)
               else map (fun d => (d, i_q d)) (linspace (- (25 / 10) * dlim) 0 pm_i_count) in
    do k <- argmin (map (fun x => fst x * fst x + snd x * snd x) cur);
    match nth_error cur k with
    | Some (d, q) => Ok (fin d (np_sign ((pc_lq c - pc_ld c) * t) * Rabs q))
    | None => Err IndexError
    end.
(** [_get_mtpc_lookup_table], 43-87 *)
Definition mtpc_table (c : pconst) (dlim qlim maxt : R) : res (list prow) :=
  mapm (mtpc_row c dlim qlim) (linspace (- maxt) maxt pm_t_count).
(** the loop body of [_get_mtpf_lookup_table], 101-133, with the variables that survive a
    round: t, i_d_best, i_q_best *)
Definition mtpf_step (c : pconst) (isd isq : R) (psi : R) (st : R * R * R) : (R * R * R) * option prow :=
  let '(t, bd, bq) := st in
  if req psi 0 then ((0, bd, bq), Some {| pr_t := 0; pr_d := - pc_psi c / pc_ld c; pr_q := 0; pr_psi := psi |})
  else
    let st' :=
      if req (pc_psi c) 0 then
        let q := psi / sqrt (pc_ld c * pc_ld c + pc_lq c * pc_lq c) in
        (15 / 10 * pc_p c * (pc_psi c + (pc_ld c - pc_lq c) * - q) * q, - q, q)
      else
        let ds := filter (fun d => rle 0 (psi * psi - (pc_psi c + pc_ld c * d) * (pc_psi c + pc_ld c * d))) (linspace (- isd) 0 pm_i_count) in
        let cur := map (fun d => (d, sqrt (psi * psi - (pc_psi c + pc_ld c * d) * (pc_psi c + pc_ld c * d)) / pc_lq c)) ds in
        let cur' := filter (fun x => rle (sqrt (snd x / isq * (snd x / isq) + fst x / isd * (fst x / isd))) 1) cur in
        let tq x := 15 / 10 * pc_p c * (pc_psi c + (pc_ld c - pc_lq c) * fst x) * snd x in
        match argmin (map (fun x => - tq x) cur') with
        | Err _ => st
        | Ok k => match nth_error cur' k with Some x => (tq x, fst x, snd x) | None => st end
        end in
    let '(t', bd', bq') := st' in
    (st', if rle (sqrt (bd' * bd' + bq' * bq')) isq then Some {| pr_t := t'; pr_d := bd'; pr_q := bq'; pr_psi := psi |} else None).
Fixpoint mtpf_loop (c : pconst) (isd isq : R) (psis : list R) (st : R * R * R) : list prow :=
  match psis with
  | [] => []
  | x :: r => let (st', row) := mtpf_step c isd isq x st in match row with Some y => y :: mtpf_loop c isd isq r st' | None => mtpf_loop c isd isq r st' end
  end.
(** 89-135: rows for rising flux *)
Definition mtpf_half (c : pconst) (isd isq : R) : list prow :=
  let top := sqrt ((pc_psi c + pc_ld c * isd) * (pc_psi c + pc_ld c * isd) + pc_lq c * isq * (pc_lq c * isq)) in
  mtpf_loop c isd isq (linspace 0 top pm_psi_count) (0, 0, 0).
Definition mtpf_neg (x : prow) : prow := {| pr_t := - pr_t x; pr_d := pr_d x; pr_q := - pr_q x; pr_psi := pr_psi x |}.
(** 136-140: [np.rot90] of the four rows lists them for falling flux *)
Definition mtpf_table (c : pconst) (isd isq : R) : list prow := let h := mtpf_half c isd isq in map mtpf_neg (rev h) ++ h.
(** The tuned stage *)
Record pmsm_ops := { q_f : fpar; q_c : pconst; q_inv : R; q_maxt : R; q_mtpc : list prow; q_mtpf : list prow; q_psimax : R }.
(** [tune], 142-183, for torque_control = "online"; the grids of 185-214 are not used in that
    mode and not modelled, nor are the modes "analytical" and "interpolate". *)
Definition pmsm_tune (amax damping : R) (old : option R) (e : cenv) (nom : list R) (margin : R) : res (pmsm_ops * fmod) :=
  do fm <- foc_tune amax old e nom margin;
  let f := fst fm in
  do ld <- par "l_d" (ce_par e); do lq <- par "l_q" (ce_par e); do rs <- par "r_s" (ce_par e);
  let psi := match dict_get "psi_p" (ce_par e) with Some x => x | None => 0 end in
  let c := {| pc_ld := ld; pc_lq := lq; pc_psi := psi; pc_p := fp_p f |} in
  do tl <- item (ce_limits e) (fp_tq f); do dl <- item (ce_limits e) (fp_isd f); do ql <- item (ce_limits e) (fp_isq f);
  let al := foc_alpha damping in
  let hi := 2 / 10 * sqrt ((psi + ld * fp_dlim f) * (psi + ld * fp_dlim f) + lq * fp_qlim f * (lq * fp_qlim f)) in
  let maxt := Rmax (15 / 10 * fp_p f * (psi + (ld - lq) * - fp_dlim f) * fp_qlim f) tl in
  do mtpc <- mtpc_table c dl ql maxt;
  let h := mtpf_half c (fp_dlim f) (fp_qlim f) in
  do pmax <- np_max (map pr_psi h);
  Ok ({| q_f := foc_fill f (953 / 1000) (1 / (lq / (125 / 100 * rs)) * (al - 1) / (al * al)) (- hi) hi (1 / 100 * - hi);
         q_c := c; q_inv := (if req psi 0 && rlt lq ld then -1 else 1); q_maxt := maxt; q_mtpc := mtpc;
         q_mtpf := mtpf_table c (fp_dlim f) (fp_qlim f); q_psimax := pmax |}, snd fm).
(** The polynomial of [solve_analytical], 268-277, highest degree first *)
Definition pmsm_poly (c : pconst) (t psi : R) : list R :=
  let d := pc_ld c - pc_lq c in
  [pc_ld c * pc_ld c * (d * d);
   2 * (pc_ld c * pc_ld c) * d * pc_psi c + 2 * pc_ld c * pc_psi c * (d * d);
   pc_ld c * pc_ld c * (pc_psi c * pc_psi c) + 4 * pc_ld c * (pc_psi c * pc_psi c) * d + (pc_psi c * pc_psi c - psi * psi) * (d * d);
   2 * pc_lq c * (pc_psi c * pc_psi c * pc_psi c) + 2 * (pc_psi c * pc_psi c - psi * psi) * pc_psi c * d;
   (pc_psi c * pc_psi c - psi * psi) * (pc_psi c * pc_psi c) + pc_lq c * 2 * t / (3 * pc_p c) * (pc_lq c * 2 * t / (3 * pc_p c))].
(** [solve_analytical], 250-282; [roots] is [np.roots] followed by [np.real] *)
Definition solve_analytical (roots : list R -> list R) (c : pconst) (t psi : R) : res (R * R) :=
  do d <- np_at (roots (pmsm_poly c t psi)) (-1);
  Ok (d, 2 * t / (3 * pc_p c * (pc_psi c + (pc_ld c - pc_lq c) * d))).
(** [np.clip] of integers *)
Definition z_clip (z lo hi : Z) : Z := Z.min (Z.max z lo) hi.
(** [_get_t_idx_mtpc], 309-313 *)
Definition t_idx_mtpc (o : pmsm_ops) (t : R) : Z :=
  z_clip (py_round ((t + q_maxt o) / (2 * q_maxt o) * INR (pm_t_count - 1))) 0 (Z.of_nat pm_t_count).
(** [_get_psi_idx_mtpf], 303-307 *)
Definition psi_idx_mtpf (o : pmsm_ops) (psi : R) : Z :=
  z_clip (Z.of_nat (pm_psi_count - 1) - py_round (psi / q_psimax o * INR (pm_psi_count - 1))) 0 (Z.of_nat pm_psi_count).
(** [_get_i_d_q], 284-291 *)
Definition get_i_d_q (roots : list R -> list R) (c : pconst) (row : prow) (t psi : R) : res (R * R) :=
  do x <- solve_analytical roots c t psi; Ok (if rlt (pr_d row) (fst x) then (pr_d row, pr_q row) else x).
(** [_select_operating_point], 315-368, online *)
Definition pmsm_select (roots : list R -> list R) (o : pmsm_ops) (m : fmod) (state ref : list R) : call fmod (list R) :=
  match (do r <- item ref 0; do row <- np_at (q_mtpc o) (t_idx_mtpc o r); Ok (r, row)) with
  | Err x => (m, Err x)
  | Ok (r, row) =>
      let (m1, pm) := modulation (q_f o) m state in
      (m1, do pmx <- pm;
           let pm1 := Rmin (pr_psi row) pmx in
           do rf <- np_at (q_mtpf o) (psi_idx_mtpf o pm1);
           let t := if rlt (Rabs (pr_t rf)) (Rabs r) then np_sign r * Rabs (pr_t rf) else r in
           do x <- get_i_d_q roots (q_c o) row t pm1;
           let y := if rlt (fst x) (pr_d rf) then (pr_d rf, np_sign t * Rabs (pr_q rf)) else x in
           Ok [fst y; q_inv o * snd y])
  end.

(** ** EESMOperationPointSelection, eesm_ops.py: [poly] 96-106 and [solve_analytical] 110-130.
    The tables of 132-204 and the rest of the class are not modelled. *)
Record econst := { ec_ld : R; ec_lq : R; ec_lm : R; ec_p : R }.
Definition eesm_poly (c : econst) (ie psi t : R) : list R :=
  let d := ec_ld c - ec_lq c in let f := ec_lm c * ie in
  [ec_ld c * ec_ld c * (d * d);
   2 * (ec_ld c * ec_ld c) * d * f + 2 * ec_ld c * f * (d * d);
   ec_ld c * ec_ld c * (f * f) + 4 * ec_ld c * (f * f) * d + (f * f - psi * psi) * (d * d);
   2 * ec_lq c * (f * f * f) + 2 * (f * f - psi * psi) * f * d;
   (f * f - psi * psi) * (f * f) + ec_lq c * t / (3 * ec_p c) * (ec_lq c * t / (3 * ec_p c))].
Definition eesm_solve (roots : list R -> list R) (c : econst) (t psi ie : R) : res (R * R) :=
  if req t 0 && req ie 0 then Ok (0, 0)
  else do d <- np_at (roots (eesm_poly c ie psi t)) (-1);
       Ok (d, 2 * t / (3 * ec_p c * (ec_lm c * ie + (ec_ld c - ec_lq c) * d))).
