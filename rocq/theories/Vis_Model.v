(** Model of src/gym_electric_motor/visualization (dashboard, its plots, console printer)
    and of gem_controllers/reference_plotter.py.

    Simplifications: a matplotlib line is the pair of arrays it was last given (matplotlib
    copies them); [axis.plot(x, y)] raises ValueError if the lengths differ and so does drawing
    a line whose arrays do not fit, everything else in matplotlib succeeds; axis limits, labels, colours and legends are left out, but the
    accesses in [_scale_x_axis] and [_scale_y_axis] that can raise are kept.  The windows
    backend is modelled (motor_dashboard.py 266-298). *)
From Verif Require Import PyBase PyDict.
Local Open Scope string_scope. Local Open Scope list_scope. Local Open Scope R_scope.

(** An array element: None is nan. *)
Definition num := option R.
(** State and result of a method call. *)
Notation call S := (S * res unit)%type.
Definition done {S} (s : S) : call S := (s, Ok tt).
Definition fail {S} (s : S) (e : exn) : call S := (s, Err e).
Definition andthen {S} (c : call S) (f : S -> call S) : call S := match snd c with Ok _ => f (fst c) | Err e => (fst c, Err e) end.

(** What the environment tells its callbacks, core.py 300-362; [Finish] is [on_close]. *)
Inductive act := ANum (x : R) | AVec (l : list R) | ANone.
Inductive event :=
| ResetBegin | ResetEnd
| StepBegin (a : act)
| StepEnd (k : nat) (state reference : list R) (reward : R) (terminated : bool).

(** ** base_plots.py 7-89: MotorDashboardPlot *)
(** The y arrays are shared between [_y_data] and the attributes of the subclasses, so they
    live on a heap; [b_y]: the references in [_y_data]; [b_axis]: is there an axis? *)
Record base := { b_x : list R; b_y : list nat; b_heap : list (list num); b_lines : list (list R * list num); b_axis : bool }.
Definition deref (b : base) (h : nat) : list num := nth h (b_heap b) [].
Definition b_with_x (b : base) (x : list R) : base := {| b_x := x; b_y := b_y b; b_heap := b_heap b; b_lines := b_lines b; b_axis := b_axis b |}.
Definition b_with_y (b : base) (y : list nat) : base := {| b_x := b_x b; b_y := y; b_heap := b_heap b; b_lines := b_lines b; b_axis := b_axis b |}.
Definition b_with_heap (b : base) (h : list (list num)) : base := {| b_x := b_x b; b_y := b_y b; b_heap := h; b_lines := b_lines b; b_axis := b_axis b |}.
Definition b_with_lines (b : base) (l : list (list R * list num)) : base := {| b_x := b_x b; b_y := b_y b; b_heap := b_heap b; b_lines := l; b_axis := b_axis b |}.
(** A new array; its reference is [length (b_heap b)]. *)
Definition b_alloc (b : base) (a : list num) : base := b_with_heap b (b_heap b ++ [a]).
Definition b_write (b : base) (h : nat) (a : list num) : base := b_with_heap b (list_set h a (b_heap b)).
(** 24-43 *)
Definition b_new : base := {| b_x := []; b_y := []; b_heap := []; b_lines := []; b_axis := false |}.
(** [initialize], 45-61 *)
Definition b_init (b : base) : base := {| b_x := b_x b; b_y := b_y b; b_heap := b_heap b; b_lines := []; b_axis := true |}.
(** [line, = axis.plot(x, y); lines.append(line)] *)
Definition b_plot (b : base) (x : list R) (y : list num) : call base :=
  if Nat.eqb (length x) (length y) then done (b_with_lines b (b_lines b ++ [(x, y)])) else fail b ValueError.
(** [render], 63-71: [for line, data in zip(lines, y_data): line.set_data(x_data, data)] *)
Fixpoint redraw (b : base) (lines : list (list R * list num)) (ys : list nat) : list (list R * list num) :=
  match lines, ys with _ :: ls, h :: hs => (b_x b, deref b h) :: redraw b ls hs | ls, _ => ls end.
Definition b_render (b : base) : base := b_with_lines b (redraw b (b_lines b) (b_y b)).
(** [reset_data], 87-90 *)
Definition b_reset_data (b : base) : base := {| b_x := []; b_y := []; b_heap := b_heap b; b_lines := b_lines b; b_axis := b_axis b |}.

(** ** base_plots.py 93-200: TimePlot and its three subclasses *)
(** StatePlot (state_plot.py 37-70): position, limit, normalized?, referenced?, arrays;
    ActionPlot (action_plot.py 10-33): index, Discrete space?, array; RewardPlot
    (reward_plot.py 9-15): array. *)
Inductive tkind :=
| KState (idx : nat) (limit : R) (normalized referenced : bool) (sd rd : nat)
| KAction (idx : nat) (discrete : bool) (ad : nat)
| KReward (rd : nat).
Record tplot := {
  t_b : base; t_kind : tkind; t_scale : bool;      (* _scale_plots_to_data *)
  t_t : R; t_tau : R; t_done : option bool; t_width : nat; t_k : nat;
  t_resets : list R; t_viols : list R;             (* _reset_memory, _violation_memory *)
  t_marks : list (bool * R) }.                     (* vertical lines drawn; true: violation *)
Definition t_with_b (p : tplot) (b : base) : tplot :=
  {| t_b := b; t_kind := t_kind p; t_scale := t_scale p; t_t := t_t p; t_tau := t_tau p; t_done := t_done p; t_width := t_width p; t_k := t_k p;
     t_resets := t_resets p; t_viols := t_viols p; t_marks := t_marks p |}.
Definition t_with_kind (p : tplot) (k : tkind) : tplot :=
  {| t_b := t_b p; t_kind := k; t_scale := t_scale p; t_t := t_t p; t_tau := t_tau p; t_done := t_done p; t_width := t_width p; t_k := t_k p;
     t_resets := t_resets p; t_viols := t_viols p; t_marks := t_marks p |}.
(** 113-116 *)
Definition data_idx (p : tplot) : res nat := if Nat.eqb (t_width p) 0 then Err ZeroDivisionError else Ok (t_k p mod t_width p)%nat.
(** [np.linspace(0, w * tau, w, endpoint=False)], 153 *)
Definition grid (w : nat) (tau : R) : list R := map (fun i => INR i * tau) (seq 0 w).
(** TimePlot.reset_data, 147-154 ([_x_data[-1]] needs a point), then the subclass: StatePlot
    103-107 (new arrays; [_y_data] is set by [initialize]), ActionPlot 45-48 (new array,
    appended to [_y_data]), RewardPlot 33-35 (new array, [_y_data] stays empty). *)
Definition t_reset_data (p : tplot) : call tplot :=
  let b := b_with_x (b_reset_data (t_b p)) (grid (t_width p) (t_tau p)) in
  let p0 := {| t_b := b; t_kind := t_kind p; t_scale := t_scale p; t_t := 0; t_tau := t_tau p; t_done := t_done p; t_width := t_width p; t_k := 0;
               t_resets := []; t_viols := []; t_marks := t_marks p |} in
  if Nat.eqb (t_width p) 0 then fail p0 IndexError else
  let n := length (b_heap b) in
  let blank := repeat None (t_width p) : list num in
  done match t_kind p with
       | KState i l nd rf _ _ => t_with_kind (t_with_b p0 (b_alloc (b_alloc b blank) blank)) (KState i l nd rf n (S n))
       | KAction i d _ => t_with_kind (t_with_b p0 (b_with_y (b_alloc b blank) [n])) (KAction i d n)
       | KReward _ => t_with_kind (t_with_b p0 (b_alloc b blank)) (KReward n)
       end.
(** [set_env]: TimePlot 141-145, StatePlot 72-101, ActionPlot 50-80 (both call [reset_data]
    again), RewardPlot 22-31 (sets [_y_data] itself). *)
Definition t_set_env (p : tplot) (tau : R) (scale : bool) : call tplot :=
  let p0 := {| t_b := t_b p; t_kind := t_kind p; t_scale := scale; t_t := t_t p; t_tau := tau; t_done := t_done p; t_width := t_width p; t_k := t_k p;
               t_resets := t_resets p; t_viols := t_viols p; t_marks := t_marks p |} in
  andthen (t_reset_data p0) (fun p1 =>
  match t_kind p1 with
  | KState _ _ _ _ _ _ | KAction _ _ _ => t_reset_data p1
  | KReward _ => let b := t_b p1 in let n := length (b_heap b) in
      done (t_with_kind (t_with_b p1 (b_with_y (b_alloc b (repeat None (length (b_x b)))) [n])) (KReward n))
  end).
(** [initialize]: StatePlot 109-120, 149; ActionPlot 35-43; RewardPlot 17-20.  A new axis has
    no vertical lines. *)
Definition t_initialize (p : tplot) : call tplot :=
  let b := b_init (t_b p) in
  let p0 := {| t_b := b; t_kind := t_kind p; t_scale := t_scale p; t_t := t_t p; t_tau := t_tau p; t_done := t_done p; t_width := t_width p; t_k := t_k p;
               t_resets := t_resets p; t_viols := t_viols p; t_marks := [] |} in
  let draw b h := b_plot b (b_x b) (deref b h) in
  let r := match t_kind p with
           | KState _ _ _ rf sd rd =>
               andthen (andthen (draw b sd) (fun b => if rf then draw b rd else done b)) (fun b => done (b_with_y b [sd; rd]))
           | KAction _ _ ad => draw b ad
           | KReward rd => draw b rd
           end in
  (t_with_b p0 (fst r), snd r).
(** on_reset_begin, 156-163 *)
Definition t_on_reset_begin (p : tplot) : tplot :=
  {| t_b := t_b p; t_kind := t_kind p; t_scale := t_scale p; t_t := t_t p; t_tau := t_tau p; t_done := Some false; t_width := t_width p; t_k := t_k p;
     t_resets := match t_done p with Some false => t_resets p ++ [t_t p] | _ => t_resets p end;
     t_viols := match t_done p with Some true => t_viols p ++ [t_t p] | _ => t_viols p end; t_marks := t_marks p |}.
(** TimePlot.on_step_end, 165-168 *)
Definition t_advance (terminated : bool) (p : tplot) : tplot :=
  {| t_b := t_b p; t_kind := t_kind p; t_scale := t_scale p; t_t := t_t p + t_tau p; t_tau := t_tau p; t_done := Some terminated; t_width := t_width p; t_k := S (t_k p);
     t_resets := t_resets p; t_viols := t_viols p; t_marks := t_marks p |}.
(** [array[i] = v] *)
Definition put (b : base) (h i : nat) (v : num) : base := b_write b h (list_set i v (deref b h)).
Definition put_x (b : base) (i : nat) (v : R) : base := b_with_x b (list_set i v (b_x b)).
Definition lift_r {S A} (s : S) (r : res A) (f : A -> call S) : call S := match r with Ok a => f a | Err e => (s, Err e) end.
Definition item_r (l : list R) (i : nat) : res R := match nth_error l i with Some v => Ok v | None => Err IndexError end.
(** [on_step_begin]: ActionPlot 82-92, the others do nothing (core.py 724-727) *)
Definition t_on_step_begin (a : act) (p : tplot) : call tplot :=
  match t_kind p with
  | KAction i disc ad =>
      lift_r p (data_idx p) (fun idx =>
      let p1 := t_with_b p (put_x (t_b p) idx (t_t p)) in
      match a, disc with
      | ANone, _ => done p1
      | ANum v, true => done (t_with_b p1 (put (t_b p1) ad idx (Some v)))
      | AVec l, false => lift_r p1 (item_r l i) (fun v => done (t_with_b p1 (put (t_b p1) ad idx (Some v))))
      | AVec _, true => fail p1 ValueError          (* a sequence does not fit into an element *)
      | ANum _, false => fail p1 TypeError          (* a number has no items *)
      end)
  | _ => done p
  end.
(** [on_step_end]: StatePlot 151-160 writes after the counters moved on, RewardPlot 37-41
    before. *)
Definition t_on_step_end (state reference : list R) (reward : R) (terminated : bool) (p : tplot) : call tplot :=
  match t_kind p with
  | KState i limit nd rf sd rd =>
      let p1 := t_advance terminated p in
      lift_r p1 (item_r state i) (fun s => lift_r p1 (item_r reference i) (fun r => lift_r p1 (data_idx p1) (fun idx =>
      let b := put (put_x (t_b p1) idx (t_t p1)) sd idx (Some (if nd then s * limit else s)) in
      done (t_with_b p1 (if rf then put b rd idx (Some (if nd then r * limit else r)) else b)))))
  | KAction _ _ _ => done (t_advance terminated p)
  | KReward rd =>
      lift_r p (data_idx p) (fun idx => done (t_advance terminated (t_with_b p (put (put_x (t_b p) idx (t_t p)) rd idx (Some reward)))))
  end.
(** [_scale_y_axis], 188-199: does it raise? *)
Definition all_nan (l : list num) : bool := forallb (fun v => match v with None => true | Some _ => false end) l.
Definition t_scale_y (p : tplot) : res unit :=
  if t_scale p then
    match b_y (t_b p) with
    | [] => Err IndexError
    | h :: hs => if all_nan (deref (t_b p) h) then Ok tt else match hs with [] => Err IndexError | _ :: _ => Ok tt end
    end
  else Ok tt.
(** [render], 170-179: lines, axes ([_scale_x_axis] needs the axis, 181-186), then the
    vertical lines, which empties the memories. *)
Definition t_render (p : tplot) : call tplot :=
  let p1 := t_with_b p (b_render (t_b p)) in
  if negb (b_axis (t_b p)) then fail p1 AttributeError else
  match t_scale_y p1 with
  | Err e => fail p1 e
  | Ok _ => done {| t_b := t_b p1; t_kind := t_kind p; t_scale := t_scale p; t_t := t_t p; t_tau := t_tau p; t_done := t_done p; t_width := t_width p; t_k := t_k p;
                    t_resets := []; t_viols := []; t_marks := t_marks p ++ map (pair true) (t_viols p) ++ map (pair false) (t_resets p) |}
  end.
(** Constructors: TimePlot 118-131 and 133-139 (width).  The arrays of a new StatePlot are two
    empty lists. *)
Definition t_new (width : nat) (k : nat -> nat -> tkind) : tplot :=
  {| t_b := b_alloc (b_alloc b_new []) []; t_kind := k 0%nat 1%nat; t_scale := false; t_t := 0; t_tau := 0; t_done := None; t_width := width; t_k := 0; t_resets := []; t_viols := []; t_marks := [] |}.
Definition state_plot (width idx : nat) (limit : R) (normalized referenced : bool) : tplot := t_new width (KState idx limit normalized referenced).
Definition action_plot (width idx : nat) (discrete : bool) : tplot := t_new width (fun h _ => KAction idx discrete h).
Definition reward_plot (width : nat) : tplot := t_new width (fun h _ => KReward h).

(** ** base_plots.py 202-225: EpisodePlot; episode_length_plot.py, mean_episode_reward_plot.py *)
Inductive ekind :=
| KLength (h : nat) (len : nat)                  (* _episode_lengths, _episode_length *)
| KMean (h : nat) (sum : R) (len : nat).         (* _reward_data, _reward_sum, _episode_length *)
Record eplot := { e_b : base; e_kind : ekind; e_no : Z }.  (* _episode_no *)
Definition length_plot : eplot := {| e_b := b_with_y (b_alloc b_new []) [0%nat]; e_kind := KLength 0 0; e_no := -1 |}.
Definition mean_plot : eplot := {| e_b := b_alloc b_new []; e_kind := KMean 0 0 0; e_no := -1 |}.
Definition push (b : base) (h : nat) (v : R) : base := b_write b h (deref b h ++ [Some v]).
(** [_set_y_data]: length 34-39; mean 35-44 (division of two Python numbers if no step was
    taken) *)
Definition e_set_y (p : eplot) : call eplot :=
  match e_kind p with
  | KLength h len => done {| e_b := push (e_b p) h (INR len); e_kind := KLength h 0; e_no := e_no p |}
  | KMean h sum len => if Nat.eqb len 0 then fail p ZeroDivisionError
                       else done {| e_b := push (e_b p) h (sum / INR len); e_kind := KMean h 0 0; e_no := e_no p |}
  end.
(** on_reset_begin, 209-213 *)
Definition e_on_reset_begin (p : eplot) : call eplot :=
  andthen (if (-1 <? e_no p)%Z then e_set_y {| e_b := b_with_x (e_b p) (b_x (e_b p) ++ [IZR (e_no p)]); e_kind := e_kind p; e_no := e_no p |} else done p)
    (fun p => done {| e_b := e_b p; e_kind := e_kind p; e_no := e_no p + 1 |}).
(** on_step_end: length 24-25, mean 25-28 *)
Definition e_on_step_end (k : nat) (reward : R) (p : eplot) : eplot :=
  {| e_b := e_b p; e_no := e_no p; e_kind := match e_kind p with KLength h _ => KLength h k | KMean h sum _ => KMean h (sum + reward) k end |}.
(** reset_data: 218-221, length 27-32, mean 30-33 *)
Definition e_reset_data (p : eplot) : eplot :=
  let b := b_reset_data (e_b p) in let n := length (b_heap b) in
  match e_kind p with
  | KLength _ len => {| e_b := b_with_y (b_alloc b []) [n]; e_kind := KLength n len; e_no := -1 |}
  | KMean _ sum len => {| e_b := b_alloc b []; e_kind := KMean n sum len; e_no := -1 |}
  end.
(** initialize: length 20-22, mean 19-23 (a new, empty list for the rewards) *)
Definition e_initialize (p : eplot) : eplot :=
  let b := b_init (e_b p) in
  match e_kind p with
  | KLength h len => {| e_b := b_with_lines b [([], [])]; e_kind := KLength h len; e_no := e_no p |}
  | KMean _ sum len => let n := length (b_heap b) in
      {| e_b := b_with_lines (b_with_y (b_alloc b []) (b_y b ++ [n])) [([], [])]; e_kind := KMean n sum len; e_no := e_no p |}
  end.
(** render: _scale_x_axis 223-225 needs the axis as soon as there is a point, length 41-43
    needs it if the limits change (left out), mean 46-49 with two points. *)
Definition e_render (p : eplot) : call eplot :=
  let p1 := {| e_b := b_render (e_b p); e_kind := e_kind p; e_no := e_no p |} in
  if negb (b_axis (e_b p)) && negb (Nat.eqb (length (b_x (e_b p))) 0) then fail p1 AttributeError else done p1.

(** ** base_plots.py 228-248: StepPlot; cumulative_constraint_violation_plot.py *)
Record splot := { s_b : base; s_viols : nat; s_count : nat; s_k : nat }.  (* _violations, _no_of_violations, _k *)
Definition violation_plot : splot := {| s_b := b_with_x (b_alloc b_new [Some 0]) [0]; s_viols := 0; s_count := 0; s_k := 0 |}.
(** on_step_begin, 233-234 *)
Definition s_on_step_begin (p : splot) : splot := {| s_b := s_b p; s_viols := s_viols p; s_count := s_count p; s_k := S (s_k p) |}.
(** on_step_end, cumulative 23-31 *)
Definition s_on_step_end (terminated : bool) (p : splot) : splot :=
  if terminated then
    let b := push (b_with_x (s_b p) (b_x (s_b p) ++ [INR (s_k p) - 1])) (s_viols p) (INR (s_count p)) in
    let c := S (s_count p) in
    {| s_b := push (b_with_x b (b_x b ++ [INR (s_k p)])) (s_viols p) (INR c); s_viols := s_viols p; s_count := c; s_k := s_k p |}
  else p.
(** initialize, cumulative 14-17 *)
Definition s_initialize (p : splot) : call splot :=
  let b := b_init (s_b p) in let b := b_with_y b (b_y b ++ [s_viols p]) in
  let r := b_plot b (b_x b) (deref b (s_viols p)) in
  ({| s_b := fst r; s_viols := s_viols p; s_count := s_count p; s_k := s_k p |}, snd r).
(** reset_data, 236-239 and cumulative 19-21: the counter of the violations is kept *)
Definition s_reset_data (p : splot) : splot :=
  let b := b_reset_data (s_b p) in {| s_b := b_alloc b [Some 0]; s_viols := length (b_heap b); s_count := s_count p; s_k := 0 |}.
(** render: _scale_x_axis 241-243 reads the axis, then the last point *)
Definition s_render (p : splot) : call splot :=
  let p1 := {| s_b := b_render (s_b p); s_viols := s_viols p; s_count := s_count p; s_k := s_k p |} in
  if negb (b_axis (s_b p)) then fail p1 AttributeError else if Nat.eqb (length (b_x (s_b p))) 0 then fail p1 IndexError else done p1.

(** ** motor_dashboard.py *)
(** [d_ep_fig], [d_step_fig], [d_time_fig]: is the figure open? *)
Record dash := { d_time : list tplot; d_ep : list eplot; d_step : list splot; d_interval : Z; d_k : Z; d_update : bool; d_ep_fig : bool; d_step_fig : bool; d_time_fig : bool }.
Definition d_with (d : dash) (t : list tplot) (e : list eplot) (s : list splot) : dash :=
  {| d_time := t; d_ep := e; d_step := s; d_interval := d_interval d; d_k := d_k d; d_update := d_update d; d_ep_fig := d_ep_fig d; d_step_fig := d_step_fig d; d_time_fig := d_time_fig d |}.
(** A loop over plots. *)
Fixpoint each_plot {P} (f : P -> call P) (l : list P) : call (list P) :=
  match l with
  | [] => done []
  | p :: l' => match f p with
               | (p', Ok _) => let (l2, r) := each_plot f l' in (p' :: l2, r)
               | (p', Err e) => (p' :: l', Err e)
               end
  end.
(** [for plot in self._plots], the plots in the order of 205 *)
Definition all_plots (ft : tplot -> call tplot) (fe : eplot -> call eplot) (fs : splot -> call splot) (d : dash) : call dash :=
  match each_plot ft (d_time d) with
  | (t, Err e) => (d_with d t (d_ep d) (d_step d), Err e)
  | (t, Ok _) => match each_plot fe (d_ep d) with
                 | (ep, Err e) => (d_with d t ep (d_step d), Err e)
                 | (ep, Ok _) => let (s, r) := each_plot fs (d_step d) in (d_with d t ep s, r)
                 end
  end.
Definition keep {P} (p : P) : call P := done p.
(** [k % interval]: ZeroDivisionError for 0; 148-150 *)
Definition d_count (d : dash) : call dash :=
  let k := (d_k d + 1)%Z in
  let d1 upd := {| d_time := d_time d; d_ep := d_ep d; d_step := d_step d; d_interval := d_interval d; d_k := k; d_update := upd; d_ep_fig := d_ep_fig d; d_step_fig := d_step_fig d; d_time_fig := d_time_fig d |} in
  if Z.eqb (d_interval d) 0 then fail (d1 (d_update d)) ZeroDivisionError
  else done (d1 (if Z.eqb (k mod d_interval d) 0 then true else d_update d)).
(** on_reset_begin 110-113, on_reset_end 115-123, on_step_begin 125-133, on_step_end 135-150 *)
Definition d_event (ev : event) (d : dash) : call dash :=
  match ev with
  | ResetBegin => all_plots (fun p => done (t_on_reset_begin p)) e_on_reset_begin keep d
  | ResetEnd => done d
  | StepBegin a => all_plots (t_on_step_begin a) keep (fun p => done (s_on_step_begin p)) d
  | StepEnd k st rf rw tm =>
      andthen (all_plots (t_on_step_end st rf rw tm) (fun p => done (e_on_step_end k rw p)) (fun p => done (s_on_step_end tm p)) d) d_count
  end.
(** _initialize_figures_window, 266-298: episodic, step, time plots; a figure is open before
    its plots are initialised. *)
Definition d_initialize (d : dash) : call dash :=
  let opened e s t d := {| d_time := d_time d; d_ep := d_ep d; d_step := d_step d; d_interval := d_interval d; d_k := d_k d; d_update := d_update d;
                           d_ep_fig := d_ep_fig d || e; d_step_fig := d_step_fig d || s; d_time_fig := d_time_fig d || t |} in
  let some {A} (l : list A) := negb (Nat.eqb (length l) 0) in
  let d1 := opened (some (d_ep d)) false false d in
  andthen (all_plots keep (fun p => done (e_initialize p)) keep d1) (fun d =>
  andthen (all_plots keep keep s_initialize (opened false (some (d_step d)) false d)) (fun d =>
  all_plots t_initialize keep keep (opened false false (some (d_time d)) d))).
(** [fig.canvas.draw()]: matplotlib broadcasts the two arrays of each line against each other
    (Line2D.recache) and raises ValueError if that is impossible. *)
Definition drawable (l : list R * list num) : bool := Nat.eqb (length (fst l)) (length (snd l)) || Nat.eqb (length (fst l)) 1 || Nat.eqb (length (snd l)) 1.
Definition d_drawable (d : dash) : bool :=
  forallb (fun p => forallb drawable (b_lines (t_b p))) (d_time d) && forallb (fun p => forallb drawable (b_lines (e_b p))) (d_ep d)
  && forallb (fun p => forallb drawable (b_lines (s_b p))) (d_step d).
(** render, 152-161 and _update, 300-308 *)
Definition d_render (d : dash) : call dash :=
  andthen (if negb (d_time_fig d || d_ep_fig d || d_step_fig d) && negb (Nat.eqb (length (d_time d) + length (d_ep d) + length (d_step d)) 0) then d_initialize d else done d) (fun d =>
  if d_update d then
    andthen (all_plots t_render e_render s_render d) (fun d =>
    if negb (d_drawable d) then fail d ValueError else
    done {| d_time := d_time d; d_ep := d_ep d; d_step := d_step d; d_interval := d_interval d; d_k := d_k d; d_update := false; d_ep_fig := d_ep_fig d; d_step_fig := d_step_fig d; d_time_fig := d_time_fig d |})
  else done d).
(** reset_figures, 213-222 *)
Definition d_reset_figures (d : dash) : call dash :=
  andthen (all_plots t_reset_data (fun p => done (e_reset_data p)) (fun p => done (s_reset_data p)) d) (fun d =>
  done {| d_time := d_time d; d_ep := d_ep d; d_step := d_step d; d_interval := d_interval d; d_k := d_k d; d_update := d_update d; d_ep_fig := false; d_step_fig := false; d_time_fig := false |}).
(** set_env, 163-211, for given time plots: [set_env] of the time plots *)
Definition d_set_env (tau : R) (scale : bool) (d : dash) : call dash := all_plots (fun p => t_set_env p tau scale) keep keep d.
(** Constructor, 71-106: [update_interval > 0] and [int(update_interval)]; the plots as [set_env]
    creates them with [int(time_plot_width)]. *)
Definition d_new (update_interval time_plot_width : R) (time : list (nat -> tplot)) (ep : list eplot) (step : list splot) : res dash :=
  do _ <- py_assert (rlt 0 update_interval);
  do _ <- py_assert (rlt 0 time_plot_width);
  Ok {| d_time := map (fun f => f (Z.to_nat (Int_part time_plot_width))) time; d_ep := ep; d_step := step; d_interval := Int_part update_interval; d_k := 0; d_update := false;
        d_ep_fig := false; d_step_fig := false; d_time_fig := false |}.

(** What the environment and the user do with a dashboard; [Render] is called by the user
    (core.py 321-326), after each step with RenderMode.Figure and at the end with
    RenderMode.FigureOnce (347-355); [Force] is force_render, 364-366. *)
Inductive vop := Tell (ev : event) | Render | ResetFigures | Force.
Definition d_op (o : vop) (d : dash) : call dash :=
  match o with
  | Tell ev => d_event ev d
  | Render => d_render d
  | ResetFigures => d_reset_figures d
  | Force => d_render {| d_time := d_time d; d_ep := d_ep d; d_step := d_step d; d_interval := d_interval d; d_k := d_k d; d_update := true; d_ep_fig := d_ep_fig d; d_step_fig := d_step_fig d; d_time_fig := d_time_fig d |}
  end.
(** A run until the first exception. *)
Fixpoint d_run (ops : list vop) (d : dash) : call dash :=
  match ops with [] => done d | o :: ops' => andthen (d_op o d) (d_run ops') end.

(** ** console_printer.py *)
(** A printed line: end of an episode (number, reason, steps, cumulative reward) 70-78, or a
    step 80-90 (episode, step, cumulative reward; state, reference and reward are those of the
    last step and left out). *)
Inductive message := EpisodeEnd (episode : nat) (violation : bool) (steps : nat) (cum : R) | StepLine (episode steps : nat) (cum : R).
Record printer := { c_verbose : Z; c_freq : nat; c_k : nat; c_cum : R; c_done : bool; c_episode : nat; c_reset : bool; c_out : list message }.
(** 13-40 *)
Definition printer_new (verbose : Z) (freq : nat) : printer := {| c_verbose := verbose; c_freq := freq; c_k := 0; c_cum := 0; c_done := false; c_episode := 0; c_reset := false; c_out := [] |}.
(** 42-66; [StepBegin] passes the counter before the step, [k0] *)
Inductive cop := CReset | CStepBegin (k : nat) | CStepEnd (k : nat) (reward : R) (terminated : bool) | CRender.
Definition c_render (p : printer) : call printer :=
  if (0 <? c_verbose p)%Z then
    let p1 := if c_reset p
              then {| c_verbose := c_verbose p; c_freq := c_freq p; c_k := c_k p; c_cum := 0; c_done := c_done p; c_episode := S (c_episode p); c_reset := false;
                      c_out := c_out p ++ [EpisodeEnd (c_episode p) (c_done p) (c_k p) (c_cum p)] |}
              else p in
    if Z.eqb (c_verbose p) 2 then
      if Nat.eqb (c_freq p) 0 then fail p1 ZeroDivisionError
      else if Nat.eqb (c_k p1 mod c_freq p1) 0
           then done {| c_verbose := c_verbose p1; c_freq := c_freq p1; c_k := c_k p1; c_cum := c_cum p1; c_done := c_done p1; c_episode := c_episode p1; c_reset := c_reset p1;
                        c_out := c_out p1 ++ [StepLine (c_episode p1) (c_k p1) (c_cum p1)] |}
           else done p1
    else done p1
  else done p.
Definition c_op (o : cop) (p : printer) : call printer :=
  match o with
  | CReset => done {| c_verbose := c_verbose p; c_freq := c_freq p; c_k := c_k p; c_cum := c_cum p; c_done := c_done p; c_episode := c_episode p; c_reset := true; c_out := c_out p |}
  | CStepBegin k => done {| c_verbose := c_verbose p; c_freq := c_freq p; c_k := k; c_cum := c_cum p; c_done := c_done p; c_episode := c_episode p; c_reset := c_reset p; c_out := c_out p |}
  | CStepEnd k r t => done {| c_verbose := c_verbose p; c_freq := c_freq p; c_k := k; c_cum := c_cum p + r; c_done := t; c_episode := c_episode p; c_reset := c_reset p; c_out := c_out p |}
  | CRender => c_render p
  end.
Fixpoint c_run (ops : list cop) (p : printer) : call printer :=
  match ops with [] => done p | o :: ops' => andthen (c_op o p) (c_run ops') end.

(** ** gem_controllers/reference_plotter.py *)
(** A visualization of the environment: a dashboard with the names of its state plots (in the
    order of [d_time], None for the other time plots), or one without [_time_plots]. *)
Inductive visual := VDash (d : dash) (names : list (option string)) | VOther.
(** [tune], 13-35: which plots get the references of the controller; AttributeError for
    visualizations without time plots. *)
Fixpoint plotter_tune (vs : list visual) (referenced : list string) : res (list (list nat)) :=
  match vs with
  | [] => Ok []
  | VOther :: _ => Err AttributeError
  | VDash d names :: vs' =>
      do r <- plotter_tune vs' referenced;
      Ok (map fst (List.filter (fun x => match snd x with Some s => str_in s referenced | None => false end) (combine (seq 0 (length names)) names)) :: r)
  end.
(** 31-32: the selected plots are marked as referenced; [update_plots], 63-64 *)
Definition t_mark (p : tplot) : tplot :=
  match t_kind p with KState i l nd _ sd rd => t_with_kind p (KState i l nd true sd rd) | _ => p end.
Definition t_update_ref (v : R) (p : tplot) : call tplot :=
  match t_kind p with
  | KState _ _ _ _ _ rd => lift_r p (data_idx p) (fun idx => done (t_with_b p (put (t_b p) rd idx (Some v))))
  | _ => done p
  end.
