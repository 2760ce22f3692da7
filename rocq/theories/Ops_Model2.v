(** Operation point selection of gem_controllers with stored tables: the modes "analytical"
    and "interpolate" of PMSMOperationPointSelection and EESMOperationPointSelection.
    Files: /repo/src/gem_controllers/stages/operation_point_selection/pmsm_ops.py, eesm_ops.py.
    [np.complex] was removed in numpy 1.24: the boolean [cplx] says whether the installed
    numpy still has it. *)
From Coq Require Import ZArith.
From Verif Require Export Ops_Model.
Local Open Scope string_scope. Local Open Scope list_scope. Local Open Scope R_scope.

(** ** numpy and scipy *)
(** [np.amin(l)] *)
Definition np_min (l : list R) : res R := match l with [] => Err ValueError | x :: r => Ok (fold_left Rmin r x) end.
(** comparisons with nan are False *)
Definition nan_lt (x : nan) (y : R) : bool := match x with None => false | Some v => rlt v y end.
Definition nan_le (x : nan) (y : R) : bool := match x with None => false | Some v => rle v y end.
Definition nan_gt (x : nan) (y : R) : bool := match x with None => false | Some v => rlt y v end.
Definition nan_scale (a : R) (x : nan) : nan := match x with None => None | Some v => Some (a * v) end.
Definition dot (w v : list R) : R := fold_right Rplus 0 (map2 Rmult w v).
(** [scipy.interpolate.griddata(points, values, grid, method="linear")]: scipy triangulates the
    points and interpolates the values at the corners of the triangle that holds the query.
    [tri points] is that triangulation (it may raise): for a query it gives the weight of each
    point, or None outside the convex hull, where griddata answers nan. *)
Definition triang := list (R * R) -> res (R -> R -> option (list R)).
Definition griddata (tri : triang) (pts : list (R * R)) (vals : list R) (xs ys : list R) : res (list (list nan)) :=
  do w <- tri pts;
  Ok (map (fun x => map (fun y => match w x y with None => None | Some ws => Some (dot ws vals) end) ys) xs).
(** [scipy.interpolate.interp1d(x, y, kind="linear")] called with a number; the abscissae rise,
    outside of them a ValueError is raised. *)
Fixpoint interp_lin (pts : list (R * R)) (x : R) : res R :=
  match pts with
  | (x0, y0) :: (((x1, y1) :: _) as r) =>
      if rlt x x0 then Err ValueError
      else if rle x x1 then Ok (y0 + (y1 - y0) / (x1 - x0) * (x - x0)) else interp_lin r x
  | _ => Err ValueError
  end.
(** [table[i, j]] *)
Definition tab_at {A} (tab : list (list A)) (i j : Z) : res A := do r <- np_at tab i; np_at r j.

(** ** PMSMOperationPointSelection, pmsm_ops.py *)
(** the current grid, 188-206: i_d and i_q of [np.mgrid], flattened and filtered *)
Definition pm_grid (c : pconst) (dl ql : R) : list (R * R) :=
  filter (fun x => let f := pc_psi c + fst x * pc_ld c in
            if req (pc_ld c) (pc_lq c) then rlt 0 f else rlt 0 (np_sign f * (f * f) + snd x * pc_lq c * (snd x * pc_lq c)))
    (list_prod (linspace (- dl) 0 pm_i_count) (linspace (- ql) ql (pm_i_count / 2))).
(** 209-210 *)
Definition pm_grid_t (c : pconst) (x : R * R) : R := pc_p c * (15 / 10) * (pc_psi c + (pc_ld c - pc_lq c) * fst x) * snd x.
Definition pm_grid_psi (c : pconst) (x : R * R) : R :=
  sqrt ((pc_ld c * fst x + pc_psi c) * (pc_ld c * fst x + pc_psi c) + pc_lq c * snd x * (pc_lq c * snd x)).
(** The tables of a tuned stage: t_min, t_max, psi_min, psi_max, i_d_inter, i_q_inter *)
Record lut := { lu_tmin : R; lu_tmax : R; lu_pmin : R; lu_pmax : R; lu_d : list (list nan); lu_q : list (list nan) }.
Inductive pm_mode := Online | Analytical | Interpolate | OtherMode.
(** 211-214 *)
Definition pm_range (c : pconst) (g : list (R * R)) : res (R * R * R * R) :=
  do t0 <- np_min (map (pm_grid_t c) g); do t1 <- np_max (map (pm_grid_t c) g);
  do p0 <- np_min (map (pm_grid_psi c) g); do p1 <- np_max (map (pm_grid_psi c) g); Ok (t0, t1, p0, p1).
(** 221-232, transposed: one row per torque *)
Definition analytical_table (roots : list R -> list R) (c : pconst) (t0 t1 p0 p1 : R) : res (list (list (R * R))) :=
  mapm (fun t => mapm (fun psi => solve_analytical roots c t psi) (linspace p0 p1 pm_psi_count)) (linspace t0 t1 pm_t_count).
(** 185-248: None for "online" *)
Definition pm_lut (cplx : bool) (tri : triang) (roots : list R -> list R) (mode : pm_mode) (c : pconst) (dl ql : R) : res (option lut) :=
  let g := pm_grid c dl ql in
  do rg <- pm_range c g;
  let '(t0, t1, p0, p1) := rg in
  match mode with
  | Online => Ok None
  | OtherMode => Err NotImplementedError
  | Analytical =>
      do tab <- analytical_table roots c t0 t1 p0 p1;
      Ok (Some {| lu_tmin := t0; lu_tmax := t1; lu_pmin := p0; lu_pmax := p1;
                  lu_d := map (map (fun x => Some (fst x))) tab; lu_q := map (map (fun x => Some (snd x))) tab |})
  | Interpolate =>
      if cplx then
        let pts := map (fun x => (pm_grid_t c x, pm_grid_psi c x)) g in
        let ts := linspace t0 t1 pm_t_count in let ps := linspace p0 p1 pm_psi_count in
        do q <- griddata tri pts (map snd g) ts ps; do d <- griddata tri pts (map fst g) ts ps;
        Ok (Some {| lu_tmin := t0; lu_tmax := t1; lu_pmin := p0; lu_pmax := p1; lu_d := d; lu_q := q |})
      else Err AttributeError
  end.
(** the whole [tune], 142-248 *)
Definition pmsm_tune2 (cplx : bool) (tri : triang) (roots : list R -> list R) (mode : pm_mode) (amax damping : R) (old : option R) (e : cenv) (nom : list R) (margin : R)
  : res (pmsm_ops * option lut * fmod) :=
  do om <- pmsm_tune amax damping old e nom margin;
  let f := q_f (fst om) in
  do dl <- item (ce_limits e) (fp_isd f); do ql <- item (ce_limits e) (fp_isq f);
  do lu <- pm_lut cplx tri roots mode (q_c (fst om)) dl ql;
  Ok (fst om, lu, snd om).
(** [_get_t_idx], 293-296, and [_get_psi_idx], 298-301; 0/0 is nan, [round(nan)] raises ValueError *)
Definition grid_idx (x lo hi : R) (n : nat) : res Z :=
  if req (hi - lo) 0 then Err ValueError else Ok (py_round ((np_clip x lo hi - lo) / (hi - lo) * INR (n - 1))).
(** the look-up and the limits, 346-363, for the mtpc row [row], the mtpf row [rf], the limited
    torque [t] and flux [psi].  352 makes [reference] a number, 363 is then not reached. *)
Definition lut_point (l : lut) (row rf : prow) (t psi : R) : res (nan * nan) :=
  do ti <- grid_idx t (lu_tmin l) (lu_tmax l) pm_t_count; do pi <- grid_idx psi (lu_pmin l) (lu_pmax l) pm_psi_count;
  do d <- tab_at (lu_d l) ti pi; do q <- tab_at (lu_q l) ti pi;
  if nan_le d (pr_d rf) then Ok (Some (pr_d rf), Some (np_sign t * Rabs (pr_q rf)))
  else
    let y := if nan_gt d (pr_d row) then (Some (pr_d row), Some (np_sign t * Rabs (pr_q row))) else (d, q) in
    Ok (if nan_lt (fst y) (pr_d rf) then (Some (pr_d rf), Some (np_sign t * Rabs (pr_q rf))) else y).
(** [_select_operating_point], 315-368, with a table *)
Definition pmsm_select_lut (l : lut) (o : pmsm_ops) (m : fmod) (state ref : list R) : call fmod (list nan) :=
  match (do r <- item ref 0; do row <- np_at (q_mtpc o) (t_idx_mtpc o r); Ok (r, row)) with
  | Err x => (m, Err x)
  | Ok (r, row) =>
      let (m1, pm) := modulation (q_f o) m state in
      (m1, do pmx <- pm;
           let pm1 := Rmin (pr_psi row) pmx in
           do rf <- np_at (q_mtpf o) (psi_idx_mtpf o pm1);
           let t := if rlt (Rabs (pr_t rf)) (Rabs r) then np_sign r * Rabs (pr_t rf) else r in
           do y <- lut_point l row rf t pm1;
           Ok [fst y; nan_scale (q_inv o) (snd y)])
  end.

(** ** EESMOperationPointSelection, eesm_ops.py *)
Definition ee_t_count : nat := 50.
Definition ee_psi_count : nat := 100.
Definition ee_i_count : nat := 150.
Definition ee_grid : nat := 200.
(** [params], 157: t, psi, i_d, i_q, i_e *)
Record erow := { er_t : R; er_psi : R; er_d : R; er_q : R; er_e : R }.
(** [loss], 94 *)
Definition ee_loss (rs re d q ie : R) : R := Rabs d * rs + Rabs q * rs + Rabs ie * re.
(** 154-162 for one torque, flux and excitation current.  A zero denominator gives an infinite
    or nan i_q, for which 155 is False. *)
Definition ee_point (roots : list R -> list R) (c : econst) (lim t psi ie : R) : res (option erow) :=
  do x <- eesm_solve roots c t psi ie;
  let den := 3 * ec_p c * (ec_lm c * ie + (ec_ld c - ec_lq c) * fst x) in
  if negb (req t 0 && req ie 0) && req den 0 then Ok None
  else if rlt (sqrt (fst x * fst x + snd x * snd x)) lim
       then Ok (Some {| er_t := t; er_psi := psi; er_d := fst x; er_q := snd x; er_e := ie |}) else Ok None.
Fixpoint somes {A} (l : list (option A)) : list A :=
  match l with [] => [] | Some x :: r => x :: somes r | None :: r => somes r end.
(** The admitted operating points, 147-162: for every torque and every flux the list of [parameter_psi] *)
Definition ee_scan (roots : list R -> list R) (c : econst) (lim elim pmax tlim : R) : res (list (R * list (list erow))) :=
  mapm (fun t => do l <- mapm (fun psi => do rs <- mapm (ee_point roots c lim t psi) (linspace 0 elim ee_i_count); Ok (somes rs)) (linspace 0 pmax ee_psi_count);
                 Ok (t, l)) (linspace 0 tlim ee_t_count).
(** [parameter[losses.index(min(losses))]], 163-168, as a list of at most one row *)
Definition ee_best (rs re : R) (l : list erow) : list erow :=
  match argmin (map (fun r => ee_loss rs re (er_d r) (er_q r) (er_e r)) l) with
  | Err _ => []
  | Ok k => match nth_error l k with Some r => [r] | None => [] end
  end.
(** [best_params] *)
Definition ee_rows (rs re : R) (scan : list (R * list (list erow))) : list erow := flat_map (fun x => ee_best rs re (concat (snd x))) scan.
(** [best_params_psi] *)
Definition ee_rows_psi (rs re : R) (scan : list (R * list (list erow))) : list erow := flat_map (fun x => flat_map (ee_best rs re) (snd x)) scan.
(** [t_max_psi[idx]], 145 and 162: the last torque with an admitted point *)
Definition ee_tmax_at (scan : list (R * list (list erow))) (j : nat) : R :=
  fold_left (fun acc x => match nth_error (snd x) j with Some (_ :: _) => fst x | _ => acc end) scan 0.
(** The tuned stage *)
Record eesm_ops := { ee_f : fpar; ee_c : econst; ee_tmax : R; ee_pmax : R; ee_popt : R -> res R; ee_tpsi : list (R * R);
                     ee_d : list (list nan); ee_q : list (list nan); ee_e : list (list nan) }.
(** [_calculate_luts], 132-204.  [cubic] builds [interp1d(x, y, kind="cubic")]; of the four only
    [psi_opt] is used again.  An empty [best_params] has no second axis: IndexError. *)
Definition ee_luts (cplx : bool) (tri : triang) (roots : list R -> list R) (cubic : list (R * R) -> res (R -> res R)) (f : fpar) (c : econst) (rs re lim elim tlim : R) : res eesm_ops :=
  let pmax := ec_lm c * elim + ec_ld c * lim in
  do scan <- ee_scan roots c lim elim pmax tlim;
  let b := ee_rows rs re scan in let bp := ee_rows_psi rs re scan in
  let tpsi := combine (linspace 0 pmax ee_psi_count) (map (fun j => 99 / 100 * ee_tmax_at scan j) (seq 0 ee_psi_count)) in
  do tmax <- match b with [] => Err IndexError | _ :: _ => np_max (map er_t b) end;
  do po <- cubic (map (fun r => (er_t r, er_psi r)) b);
  do _d <- cubic (map (fun r => (er_t r, er_d r)) b);
  do _q <- cubic (map (fun r => (er_t r, er_q r)) b);
  do _e <- cubic (map (fun r => (er_t r, er_e r)) b);
  if cplx then
    let pts := map (fun r => (er_t r, er_psi r)) bp in
    let ts := linspace 0 tmax ee_grid in let ps := linspace 0 pmax ee_grid in
    do d <- griddata tri pts (map er_d bp) ts ps;
    do q <- griddata tri pts (map er_q bp) ts ps;
    do e <- griddata tri pts (map er_e bp) ts ps;
    Ok {| ee_f := f; ee_c := c; ee_tmax := tmax; ee_pmax := pmax; ee_popt := po; ee_tpsi := tpsi; ee_d := d; ee_q := q; ee_e := e |}
  else Err AttributeError.
(** [tune], 51-108; [env.limits] are the limits of the physical system *)
Definition eesm_tune (cplx : bool) (tri : triang) (roots : list R -> list R) (cubic : list (R * R) -> res (R -> res R)) (amax damping : R) (old : option R) (e : cenv) (nom : list R) (margin : R)
  : res (eesm_ops * fmod) :=
  do fm <- foc_tune amax old e nom margin;
  let f := fst fm in
  do ld <- par "l_d" (ce_par e); do lq <- par "l_q" (ce_par e); do lm <- par "l_m" (ce_par e); do le <- par "l_e" (ce_par e);
  do rs <- par "r_s" (ce_par e); do re <- par "r_e" (ce_par e);
  do ie <- str_index "i_e" (ce_names e); do le <- item (ce_limits e) ie; do ql <- item (ce_limits e) (fp_isq f); do tl <- item (ce_limits e) (fp_tq f);
  let elim := le * (1 - margin) in let lim := ql * (1 - margin) in
  let al := foc_alpha damping in
  let hi := 2 / 10 * sqrt ((lm * elim * margin + ld * fp_qlim f * margin) * (lm * elim * margin + ld * fp_qlim f * margin)) in
  let f1 := foc_fill f (953 / 1000) (1 / (lq / (125 / 100 * rs)) * (al - 1) / (al * al)) (- hi) hi (1 / 100 * - hi) in
  do o <- ee_luts cplx tri roots cubic f1 {| ec_ld := ld; ec_lq := lq; ec_lm := lm; ec_p := fp_p f |} rs re lim elim tl;
  Ok (o, snd fm).
(** [_get_t_idx], 220-232, and [_get_psi_idx], 206-218 *)
Definition ee_t_idx (o : eesm_ops) (t : R) : res Z :=
  if req (ee_tmax o) 0 then Err ValueError else Ok (py_round (np_clip t 0 (ee_tmax o) / ee_tmax o * INR (ee_grid - 1))).
Definition ee_psi_idx (o : eesm_ops) (psi : R) : res Z :=
  if req (ee_pmax o) 0 then Err ValueError else Ok (py_round (np_clip psi 0 (ee_pmax o) / ee_pmax o * INR (ee_grid - 1))).
(** 247-255: the torque and the flux at which the tables are read, from the reference and the
    flux limit of the modulation controller *)
Definition ee_limit (o : eesm_ops) (r pm : R) : res (R * R) :=
  let a := Rabs (np_clip r (- ee_tmax o) (ee_tmax o)) in
  do po <- ee_popt o a;
  do tm <- interp_lin (ee_tpsi o) po;
  Ok (np_clip a 0 tm, np_clip po 0 pm).
(** [_select_operating_point], 234-264 *)
Definition eesm_select (o : eesm_ops) (m : fmod) (state ref : list R) : call fmod (list nan) :=
  let (m1, pm) := modulation (ee_f o) m state in
  (m1, do pmx <- pm; do r <- item ref 0; do x <- ee_limit o r pmx;
       do ti <- ee_t_idx o (fst x); do pi <- ee_psi_idx o (snd x);
       do d <- tab_at (ee_d o) ti pi; do q <- tab_at (ee_q o) ti pi; do e <- tab_at (ee_e o) ti pi;
       Ok [d; nan_scale (np_sign r) q; e]).
